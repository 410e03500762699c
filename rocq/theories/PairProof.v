(** The collation of two witnesses. *)
From Verif Require Import Py TokenModel SuffixModel IndexModel GraphModel AlignModel TableModel NearModel ExportModel CollateModel
  Lib GraphSpec GraphProof MergeProof RankProof AlignProof BlockProof SuffixProof FindProof IndexProof BlockText InstProof CubeProof
  AlignerProof CollateProof TableSpec TableProof CollateSpec JoinProof TopoProof ResultProof ErrorProof FactsProof OutputProof StageProof PlainProof NearProof NearTwoProof
  WalkSpec WalkProof WalkAlign WalkStage IdentProof DrawProof FilterProof PairSpec ChosenSpec ChosenProof.
From Coq Require Import Permutation Relations QArith Sorted.
Open Scope list_scope.
Open Scope nat_scope.

Definition up (p q : nat * nat) : Prop := fst p < fst q /\ snd p < snd q.

Lemma Forall2_pointwise : forall {A B} (R : A -> B -> Prop) l1 l2, length l1 = length l2 ->
  (forall k a b, nth_error l1 k = Some a -> nth_error l2 k = Some b -> R a b) -> Forall2 R l1 l2.
Proof.
  induction l1 as [|a l1 IH]; intros [|b l2] L H; try discriminate; constructor.
  - apply (H 0); reflexivity.
  - apply IH; [cbn in L; lia|]. intros k x y Hx Hy. apply (H (S k)); assumption.
Qed.

Lemma Forall2_impl : forall {A B} (R R' : A -> B -> Prop) l1 l2, (forall a b, R a b -> R' a b) -> Forall2 R l1 l2 -> Forall2 R' l1 l2.
Proof. induction 2; constructor; auto. Qed.
Lemma Forall2_len : forall {A B} (R : A -> B -> Prop) l1 l2, Forall2 R l1 l2 -> length l1 = length l2.
Proof. induction 1; [reflexivity|]. cbn [length]. congruence. Qed.

(** ** Layouts *)
Lemma nth_error_seq : forall n s k, k < n -> nth_error (seq s n) k = Some (s + k).
Proof.
  induction n as [|n IH]; intros s k L; [lia|]. destruct k as [|k]; cbn [seq nth_error]; [rewrite Nat.add_0_r; reflexivity|].
  rewrite IH by lia. f_equal. lia.
Qed.

Lemma gap_length : forall i x j y, length (gap i x j y) = Nat.max (x - i) (y - j).
Proof. intros. unfold gap. rewrite map_length, seq_length. reflexivity. Qed.

Lemma gap_nth : forall i x j y k, k < Nat.max (x - i) (y - j) ->
  nth_error (gap i x j y) k = Some (if i + k <? x then Some (i + k) else None, if j + k <? y then Some (j + k) else None).
Proof. intros. unfold gap. erewrite map_nth_error by (apply (nth_error_seq _ 0 k); assumption). reflexivity. Qed.

Lemma layout_first : forall P i j n m x, StronglySorted up P -> (forall x y, In (x, y) P -> i <= x < n /\ j <= y < m) ->
  i <= x < n -> In (Some x) (map fst (layout i j n m P)).
Proof.
  assert (GP : forall i x j y q, i <= q < x -> In (Some q) (map fst (gap i x j y))).
  { intros i x j y q H. apply in_map_iff. exists (Some q, if j + (q - i) <? y then Some (j + (q - i)) else None). split; [reflexivity|].
    apply nth_error_In with (n := q - i). rewrite gap_nth by lia. replace (i + (q - i)) with q by lia.
    replace (q <? x) with true by (symmetry; apply Nat.ltb_lt; lia). reflexivity. }
  induction P as [|[x0 y0] P IH]; intros i j n m x ST IN H; cbn [layout]; [apply GP; assumption|].
  rewrite map_app. apply in_or_app. destruct (IN x0 y0 (or_introl eq_refl)) as [A B]. inversion ST as [|? ? ST1 ST2]; subst.
  destruct (lt_eq_lt_dec x x0) as [[L|E]|L].
  - left. apply GP. lia.
  - right. left. cbn [fst]. congruence.
  - right. right. apply IH; [assumption| |lia]. intros x' y' Q. destruct (IN x' y' (or_intror Q)) as [C D].
    rewrite Forall_forall in ST2. specialize (ST2 _ Q). unfold up in ST2. cbn [fst snd] in ST2. lia.
Qed.

Lemma layout_second : forall P i j n m y, StronglySorted up P -> (forall x y, In (x, y) P -> i <= x < n /\ j <= y < m) ->
  j <= y < m -> In (Some y) (map snd (layout i j n m P)).
Proof.
  assert (GP : forall i x j y q, j <= q < y -> In (Some q) (map snd (gap i x j y))).
  { intros i x j y q H. apply in_map_iff. exists (if i + (q - j) <? x then Some (i + (q - j)) else None, Some q). split; [reflexivity|].
    apply nth_error_In with (n := q - j). rewrite gap_nth by lia. replace (j + (q - j)) with q by lia.
    replace (q <? y) with true by (symmetry; apply Nat.ltb_lt; lia). reflexivity. }
  induction P as [|[x0 y0] P IH]; intros i j n m y ST IN H; cbn [layout]; [apply GP; assumption|].
  rewrite map_app. apply in_or_app. destruct (IN x0 y0 (or_introl eq_refl)) as [A B]. inversion ST as [|? ? ST1 ST2]; subst.
  destruct (lt_eq_lt_dec y y0) as [[L|E]|L].
  - left. apply GP. lia.
  - right. left. cbn [snd]. congruence.
  - right. right. apply IH; [assumption| |lia]. intros x' y' Q. destruct (IN x' y' (or_intror Q)) as [C D].
    rewrite Forall_forall in ST2. specialize (ST2 _ Q). unfold up in ST2. cbn [fst snd] in ST2. lia.
Qed.

Lemma layout_pair : forall P i j n m x y, In (x, y) P -> In (Some x, Some y) (layout i j n m P).
Proof.
  induction P as [|[x0 y0] P IH]; intros i j n m x y H; [destruct H|]. cbn [layout]. apply in_or_app. right.
  destruct H as [H|H]; [left; congruence|right; apply IH; assumption].
Qed.

Lemma layout_snoc : forall P i j n m x y, layout i j n m (P ++ [(x, y)]) = layout i j x y P ++ (Some x, Some y) :: gap (S x) n (S y) m.
Proof.
  induction P as [|[x0 y0] P IH]; intros i j n m x y; cbn [app layout]; [reflexivity|].
  rewrite IH. rewrite <- app_assoc. reflexivity.
Qed.

(** ** Ranks of two chains with common vertices *)
Section Chains.
  Variables (a b : list nat) (s e : nat) (rk : nat -> nat).
  Let L1 := s :: a ++ [e].
  Let L2 := s :: b ++ [e].
  Hypothesis ND1 : NoDup L1.
  Hypothesis ND2 : NoDup L2.
  Hypothesis ONE1 : forall i u v, nth_error L1 i = Some u -> nth_error L1 (S i) = Some v -> ~ In v L2 -> rk v = S (rk u).
  Hypothesis ONE2 : forall i u v, nth_error L2 i = Some u -> nth_error L2 (S i) = Some v -> ~ In v L1 -> rk v = S (rk u).
  Hypothesis BOTH : forall i j u1 u2 v, nth_error L1 i = Some u1 -> nth_error L1 (S i) = Some v ->
    nth_error L2 j = Some u2 -> nth_error L2 (S j) = Some v -> rk v = S (Nat.max (rk u1) (rk u2)).
  Hypothesis MONO1 : forall i j u v, i < j -> nth_error L1 i = Some u -> nth_error L1 j = Some v -> rk u < rk v.
  Hypothesis MONO2 : forall i j u v, i < j -> nth_error L2 i = Some u -> nth_error L2 j = Some v -> rk u < rk v.

  Lemma a_nth : forall i v, nth_error a i = Some v -> nth_error L1 (S i) = Some v.
  Proof. intros i v H. unfold L1. cbn [nth_error]. rewrite nth_error_app1; [assumption|]. apply nth_error_Some. congruence. Qed.
  Lemma b_nth : forall i v, nth_error b i = Some v -> nth_error L2 (S i) = Some v.
  Proof. intros i v H. unfold L2. cbn [nth_error]. rewrite nth_error_app1; [assumption|]. apply nth_error_Some. congruence. Qed.
  Lemma L1_nth : forall i v, i < length a -> nth_error L1 (S i) = Some v -> nth_error a i = Some v.
  Proof. intros i v L H. unfold L1 in H. cbn [nth_error] in H. rewrite nth_error_app1 in H by assumption. assumption. Qed.
  Lemma L2_nth : forall i v, i < length b -> nth_error L2 (S i) = Some v -> nth_error b i = Some v.
  Proof. intros i v L H. unfold L2 in H. cbn [nth_error] in H. rewrite nth_error_app1 in H by assumption. assumption. Qed.
  Lemma L1_end : nth_error L1 (S (length a)) = Some e.
  Proof. unfold L1. cbn [nth_error]. rewrite nth_error_app2 by lia. rewrite Nat.sub_diag. reflexivity. Qed.
  Lemma L2_end : nth_error L2 (S (length b)) = Some e.
  Proof. unfold L2. cbn [nth_error]. rewrite nth_error_app2 by lia. rewrite Nat.sub_diag. reflexivity. Qed.

  Lemma own_a : forall i v, nth_error a i = Some v -> ~ In v b -> ~ In v L2.
  Proof.
    intros i v H N Q. apply nth_error_In in H. unfold L2 in Q. pose proof ND1 as ND. unfold L1 in ND. inversion ND as [|? ? N1 N2]; subst.
    destruct Q as [<-|Q]; [apply N1; apply in_or_app; left; assumption|]. apply in_app_or in Q as [Q|[<-|[]]]; [contradiction|].
    apply NoDup_app_iff in N2 as [_ [_ N2]]. apply (N2 e H). left. reflexivity.
  Qed.
  Lemma own_b : forall i v, nth_error b i = Some v -> ~ In v a -> ~ In v L1.
  Proof.
    intros i v H N Q. apply nth_error_In in H. unfold L1 in Q. pose proof ND2 as ND. unfold L2 in ND. inversion ND as [|? ? N1 N2]; subst.
    destruct Q as [<-|Q]; [apply N1; apply in_or_app; left; assumption|]. apply in_app_or in Q as [Q|[<-|[]]]; [contradiction|].
    apply NoDup_app_iff in N2 as [_ [_ N2]]. apply (N2 e H). left. reflexivity.
  Qed.

  (** A stretch without common vertices. *)
  Lemma run1 : forall k i u, nth_error L1 i = Some u -> i + k <= length a -> (forall q v, i <= q < i + k -> nth_error a q = Some v -> ~ In v b) ->
    exists v, nth_error L1 (i + k) = Some v /\ rk v = rk u + k.
  Proof.
    induction k as [|k IH]; intros i u H L N; [exists u; rewrite !Nat.add_0_r; auto|].
    destruct (IH i u H) as [w [W1 W2]]; [lia|intros q v Q; apply N; lia|].
    destruct (nth_error_lt_ex a (i + k)) as [v Hv]; [lia|]. exists v. replace (i + S k) with (S (i + k)) by lia.
    split; [apply a_nth; assumption|]. rewrite (ONE1 (i + k) w v W1 (a_nth _ _ Hv)); [lia|]. apply (own_a (i + k)); [assumption|]. apply (N (i + k)); [lia|assumption].
  Qed.
  Lemma run2 : forall k i u, nth_error L2 i = Some u -> i + k <= length b -> (forall q v, i <= q < i + k -> nth_error b q = Some v -> ~ In v a) ->
    exists v, nth_error L2 (i + k) = Some v /\ rk v = rk u + k.
  Proof.
    induction k as [|k IH]; intros i u H L N; [exists u; rewrite !Nat.add_0_r; auto|].
    destruct (IH i u H) as [w [W1 W2]]; [lia|intros q v Q; apply N; lia|].
    destruct (nth_error_lt_ex b (i + k)) as [v Hv]; [lia|]. exists v. replace (i + S k) with (S (i + k)) by lia.
    split; [apply b_nth; assumption|]. rewrite (ONE2 (i + k) w v W1 (b_nth _ _ Hv)); [lia|]. apply (own_b (i + k)); [assumption|]. apply (N (i + k)); [lia|assumption].
  Qed.

  Definition placed_at (r : nat) (cs : list (option nat * option nat)) : Prop :=
    forall k c, nth_error cs k = Some c ->
      (forall x, fst c = Some x -> exists v, nth_error a x = Some v /\ rk v = r + k) /\
      (forall y, snd c = Some y -> exists v, nth_error b y = Some v /\ rk v = r + k).

  Lemma gap_ranks : forall i j u x y v, nth_error L1 i = Some u -> nth_error L2 j = Some u -> i <= x -> j <= y ->
    x <= length a -> y <= length b -> nth_error L1 (S x) = Some v -> nth_error L2 (S y) = Some v ->
    (forall q w, i <= q < x -> nth_error a q = Some w -> ~ In w b) ->
    (forall q w, j <= q < y -> nth_error b q = Some w -> ~ In w a) ->
    placed_at (S (rk u)) (gap i x j y) /\ rk v = S (rk u) + length (gap i x j y).
  Proof.
    intros i j u x y v U1 U2 X Y LX LY V1 V2 N1 N2. split.
    - intros k c H. assert (L : k < Nat.max (x - i) (y - j)) by (rewrite <- gap_length; apply nth_error_Some; congruence).
      rewrite gap_nth in H by assumption. injection H as <-. cbn [fst snd]. split.
      + intros q Q. destruct (i + k <? x) eqn:E; [|discriminate]. apply Nat.ltb_lt in E. injection Q as <-.
        destruct (run1 (S k) i u U1) as [w [W1 W2]]; [lia|intros q' w Q; apply N1; lia|]. replace (i + S k) with (S (i + k)) in W1 by lia.
        exists w. split; [apply L1_nth; [lia|assumption]|lia].
      + intros q Q. destruct (j + k <? y) eqn:E; [|discriminate]. apply Nat.ltb_lt in E. injection Q as <-.
        destruct (run2 (S k) j u U2) as [w [W1 W2]]; [lia|intros q' w Q; apply N2; lia|]. replace (j + S k) with (S (j + k)) in W1 by lia.
        exists w. split; [apply L2_nth; [lia|assumption]|lia].
    - destruct (run1 (x - i) i u U1) as [w1 [W1 W2]]; [lia|intros q w Q; apply N1; lia|]. replace (i + (x - i)) with x in W1 by lia.
      destruct (run2 (y - j) j u U2) as [w2 [W3 W4]]; [lia|intros q w Q; apply N2; lia|]. replace (j + (y - j)) with y in W3 by lia.
      rewrite (BOTH x y w1 w2 v W1 V1 W3 V2), gap_length. lia.
  Qed.

  Lemma layout_ranks : forall P i j u, nth_error L1 i = Some u -> nth_error L2 j = Some u -> i <= length a -> j <= length b -> StronglySorted up P ->
    (forall x y, In (x, y) P <-> i <= x /\ j <= y /\ exists v, nth_error a x = Some v /\ nth_error b y = Some v) ->
    placed_at (S (rk u)) (layout i j (length a) (length b) P) /\ rk e = S (rk u) + length (layout i j (length a) (length b) P).
  Proof.
    induction P as [|[x y] P IH]; intros i j u U1 U2 LI LJ ST SH; cbn [layout].
    - apply gap_ranks; auto; [apply L1_end|apply L2_end| |].
      + intros q w Q Hw Hb. apply In_nth_error in Hb as [q' Hq]. apply (SH q q'). split; [lia|]. split; [|eauto].
        destruct (le_lt_dec j q') as [|C]; [assumption|exfalso].
        assert (rk u < rk w) by (apply (MONO1 i (S q) u w); [lia|assumption|apply a_nth; assumption]).
        destruct (le_lt_dec j (S q')) as [D|D].
        * assert (j = S q') by lia. subst j. rewrite (b_nth _ _ Hq) in U2. injection U2 as ->. lia.
        * pose proof (MONO2 (S q') j w u D (b_nth _ _ Hq) U2). lia.
      + intros q w Q Hw Hb. apply In_nth_error in Hb as [q' Hq]. apply (SH q' q). split; [|split; [lia|eauto]].
        destruct (le_lt_dec i q') as [|C]; [assumption|exfalso].
        assert (rk u < rk w) by (apply (MONO2 j (S q) u w); [lia|assumption|apply b_nth; assumption]).
        destruct (le_lt_dec i (S q')) as [D|D].
        * assert (i = S q') by lia. subst i. rewrite (a_nth _ _ Hq) in U1. injection U1 as ->. lia.
        * pose proof (MONO1 (S q') i w u D (a_nth _ _ Hq) U1). lia.
    - inversion ST as [|? ? ST1 ST2]; subst. rewrite Forall_forall in ST2.
      destruct (proj1 (SH x y) (or_introl eq_refl)) as [X [Y [v [V1 V2]]]].
      assert (LX : x < length a) by (apply nth_error_Some; congruence). assert (LY : y < length b) by (apply nth_error_Some; congruence).
      destruct (gap_ranks i j u x y v) as [G1 G2]; auto; try lia; [apply a_nth; assumption|apply b_nth; assumption| | |].
      { intros q w Q Hw Hb. apply In_nth_error in Hb as [q' Hq]. assert (In (q, q') ((x, y) :: P)).
        { apply SH. split; [lia|]. split; [|eauto].
          destruct (le_lt_dec j q') as [|C]; [assumption|exfalso].
          assert (rk u < rk w) by (apply (MONO1 i (S q) u w); [lia|assumption|apply a_nth; assumption]).
          destruct (le_lt_dec j (S q')) as [D|D].
          * assert (j = S q') by lia. subst j. rewrite (b_nth _ _ Hq) in U2. injection U2 as ->. lia.
          * pose proof (MONO2 (S q') j w u D (b_nth _ _ Hq) U2). lia. }
        destruct H as [H|H]; [injection H as -> _; lia|]. apply ST2 in H. unfold up in H. cbn [fst snd] in H. lia. }
      { intros q w Q Hw Hb. apply In_nth_error in Hb as [q' Hq]. assert (In (q', q) ((x, y) :: P)).
        { apply SH. split; [|split; [lia|eauto]].
          destruct (le_lt_dec i q') as [|C]; [assumption|exfalso].
          assert (rk u < rk w) by (apply (MONO2 j (S q) u w); [lia|assumption|apply b_nth; assumption]).
          destruct (le_lt_dec i (S q')) as [D|D].
          * assert (i = S q') by lia. subst i. rewrite (a_nth _ _ Hq) in U1. injection U1 as ->. lia.
          * pose proof (MONO1 (S q') i w u D (a_nth _ _ Hq) U1). lia. }
        destruct H as [H|H]; [injection H as _ ->; lia|]. apply ST2 in H. unfold up in H. cbn [fst snd] in H. lia. }
      destruct (IH (S x) (S y) v) as [I1 I2]; auto; try lia; [apply a_nth; assumption|apply b_nth; assumption| |].
      { intros x' y'. split.
        - intros Q. pose proof (ST2 _ Q) as Q2. unfold up in Q2. cbn [fst snd] in Q2. destruct (proj1 (SH x' y') (or_intror Q)) as [_ [_ Q3]]. split; [lia|]. split; [lia|assumption].
        - intros [A [B C]]. destruct (proj2 (SH x' y')) as [Q|Q]; [split; [lia|split; [lia|assumption]]|injection Q as -> ->; lia|assumption]. }
      split.
      + intros k c H. destruct (lt_eq_lt_dec k (length (gap i x j y))) as [[L|E]|L].
        * rewrite nth_error_app1 in H by assumption. apply G1. assumption.
        * rewrite nth_error_app2 in H by lia. rewrite E, Nat.sub_diag in H. cbn [nth_error] in H. injection H as <-. cbn [fst snd].
          split; intros q Q; injection Q as <-; exists v; (split; [assumption|lia]).
        * rewrite nth_error_app2 in H by lia. destruct (k - length (gap i x j y)) as [|k'] eqn:K; [lia|]. cbn [nth_error] in H.
          destruct (I1 k' c H) as [A B]. split; intros q Q; [destruct (A q Q) as [w [W1 W2]]|destruct (B q Q) as [w [W1 W2]]]; exists w; (split; [assumption|lia]).
      + rewrite app_length. cbn [length]. lia.
  Qed.
End Chains.

(** The common elements of two lists that are ordered by rank. *)
Lemma common_pairs : forall (rk : nat -> nat) a b off, (forall i j u v, i < j -> nth_error a i = Some u -> nth_error a j = Some v -> rk u < rk v) ->
  (forall i j u v, i < j -> nth_error b i = Some u -> nth_error b j = Some v -> rk u < rk v) ->
  exists P, StronglySorted up P /\ forall x y, In (x, y) P <-> off <= x /\ exists v, nth_error a (x - off) = Some v /\ nth_error b y = Some v.
Proof.
  intros rk. induction a as [|u a IH]; intros b off MA MB.
  - exists []. split; [constructor|]. intros x y. split; [intros []|]. intros [_ [v [H _]]]. destruct (x - off); discriminate.
  - destruct (IH b (S off)) as [P [ST SH]]; [intros i j p q L A B; apply (MA (S i) (S j)); [lia|assumption|assumption]|assumption|].
    assert (TL : forall x y, off < x -> (exists v, nth_error (u :: a) (x - off) = Some v /\ nth_error b y = Some v) <-> In (x, y) P).
    { intros x y L. rewrite SH. replace (x - off) with (S (x - S off)) by lia. cbn [nth_error]. intuition lia. }
    destruct (in_dec Nat.eq_dec u b) as [Hu|Hu].
    + apply In_nth_error in Hu as [y0 Hy]. exists ((off, y0) :: P). split.
      * constructor; [assumption|]. apply Forall_forall. intros [x y] Q. apply SH in Q as [L [v [A B]]]. unfold up. cbn [fst snd]. split; [lia|].
        assert (rk u < rk v) by (apply (MA 0 (S (x - S off)) u v); [lia|reflexivity|assumption]).
        destruct (lt_eq_lt_dec y0 y) as [[|E]|C]; [assumption|subst; rewrite Hy in B; injection B as ->; lia|]. pose proof (MB y y0 v u C B Hy). lia.
      * intros x y. split.
        -- intros [Q|Q]; [injection Q as <- <-; split; [lia|]; rewrite Nat.sub_diag; exists u; split; [reflexivity|assumption]|].
           pose proof (proj1 (SH x y) Q) as [L _]. split; [lia|]. apply TL; [lia|assumption].
        -- intros [L [v [A B]]]. destruct (Nat.eq_dec x off) as [->|NE]; [|right; apply TL; [lia|eauto]].
           rewrite Nat.sub_diag in A. cbn [nth_error] in A. injection A as <-. left. f_equal.
           destruct (lt_eq_lt_dec y0 y) as [[C|E]|C]; [pose proof (MB y0 y u u C Hy B); lia|assumption|pose proof (MB y y0 u u C B Hy); lia].
    + exists P. split; [assumption|]. intros x y. split.
      * intros Q. pose proof (proj1 (SH x y) Q) as [L _]. split; [lia|]. apply TL; [lia|assumption].
      * intros [L [v [A B]]]. destruct (Nat.eq_dec x off) as [->|NE]; [|apply TL; [lia|eauto]].
        rewrite Nat.sub_diag in A. cbn [nth_error] in A. injection A as <-. exfalso. apply Hu. apply nth_error_In in B. assumption.
Qed.

Lemma sorted_members : forall P Q, StronglySorted up P -> StronglySorted up Q -> (forall x, In x P <-> In x Q) -> P = Q.
Proof.
  induction P as [|p P IH]; intros Q SP SQ H.
  - destruct Q as [|q Q]; [reflexivity|]. exfalso. apply (H q). left. reflexivity.
  - destruct Q as [|q Q]; [exfalso; apply (H p); left; reflexivity|]. inversion SP as [|? ? SP1 SP2]; subst. inversion SQ as [|? ? SQ1 SQ2]; subst.
    rewrite Forall_forall in SP2, SQ2.
    assert (E : p = q).
    { destruct (proj1 (H p) (or_introl eq_refl)) as [E|E]; [congruence|]. destruct (proj2 (H q) (or_introl eq_refl)) as [F|F]; [congruence|].
      apply SQ2 in E. apply SP2 in F. unfold up in *. lia. }
    subst q. f_equal. apply IH; [assumption|assumption|]. intros x. split; intros Hx.
    + destruct (proj1 (H x) (or_intror Hx)) as [E|E]; [|assumption]. subst x. apply SP2 in Hx. unfold up in Hx. lia.
    + destruct (proj2 (H x) (or_intror Hx)) as [E|E]; [|assumption]. subst x. apply SQ2 in Hx. unfold up in Hx. lia.
Qed.

(** ** Walks and layouts *)
Definition back (p : nat * nat) : nat * nat := (snd p - 1, fst p - 1).

Lemma layout_grow : forall P n m n' m', n' <= S n -> m' <= S m -> length (layout 0 0 n' m' P) <= S (length (layout 0 0 n m P)).
Proof.
  intros P n m n' m' A B. destruct P as [|p P] using rev_ind; [cbn [layout]; rewrite !gap_length; lia|]. destruct p as [x y].
  rewrite !layout_snoc, !app_length. cbn [length]. rewrite !gap_length. lia.
Qed.

Lemma sorted_snoc : forall P p, StronglySorted up P -> (forall q, In q P -> up q p) -> StronglySorted up (P ++ [p]).
Proof.
  induction P as [|q P IH]; intros p H L; cbn [app]; [repeat constructor|]. inversion H as [|? ? H1 H2]; subst. constructor.
  - apply IH; [assumption|]. intros; apply L; right; assumption.
  - apply Forall_app. split; [assumption|]. constructor; [apply L; left; reflexivity|constructor].
Qed.

Lemma sorted_unsnoc : forall P p, StronglySorted up (P ++ [p]) -> StronglySorted up P /\ forall q, In q P -> up q p.
Proof.
  induction P as [|q P IH]; intros p H; [split; [constructor|intros q []]|]. cbn [app] in H. inversion H as [|? ? H1 H2]; subst.
  destruct (IH p H1) as [A B]. apply Forall_app in H2 as [H2 H3]. split; [constructor; assumption|].
  intros q' [<-|Q]; [|auto]. inversion H3; subst. assumption.
Qed.

Lemma walk_layout : forall M ms,
  StronglySorted up (map back (met (plain_walk M ms))) /\
  (forall x y, In (x, y) (map back (met (plain_walk M ms))) -> x < at_rank (plain_walk M ms) /\ y < at_token (plain_walk M ms)) /\
  (forall p, In p (met (plain_walk M ms)) -> 1 <= fst p /\ 1 <= snd p /\ M (fst p) (snd p) = true) /\
  length (layout 0 0 (at_rank (plain_walk M ms)) (at_token (plain_walk M ms)) (map back (met (plain_walk M ms)))) <= length ms.
Proof.
  intros M. induction ms as [|m ms [S1 [S2 [S4 S3]]]] using rev_ind.
  { split; [constructor|]. split; [intros x y []|]. split; [intros p []|]. cbn. lia. }
  rewrite plain_snoc, app_length. cbn [length]. set (w := plain_walk M ms) in *. unfold plain_step. destruct m; cbn [met at_rank at_token].
  - destruct (M (S (at_token w)) (S (at_rank w))) eqn:E.
    + rewrite map_app. cbn [map]. assert (B : back (S (at_token w), S (at_rank w)) = (at_rank w, at_token w)) by (unfold back; cbn [fst snd]; f_equal; lia).
      rewrite B. split; [|split; [|split]].
      * apply sorted_snoc; [assumption|]. intros [x y] Q. apply S2 in Q. unfold up. cbn [fst snd]. lia.
      * intros x y Q. apply in_app_or in Q as [Q|[Q|[]]]; [apply S2 in Q; lia|]. injection Q as <- <-. lia.
      * intros p Q. apply in_app_or in Q as [Q|[<-|[]]]; [apply S4; assumption|]. cbn [fst snd]. split; [lia|]. split; [lia|assumption].
      * rewrite layout_snoc, app_length. cbn [length]. rewrite gap_length. lia.
    + split; [assumption|]. split; [intros x y Q; apply S2 in Q; lia|]. split; [assumption|].
      pose proof (layout_grow (map back (met w)) (at_rank w) (at_token w) (S (at_rank w)) (S (at_token w))). lia.
  - split; [assumption|]. split; [intros x y Q; apply S2 in Q; lia|]. split; [assumption|].
    pose proof (layout_grow (map back (met w)) (at_rank w) (at_token w) (S (at_rank w)) (at_token w)). lia.
  - split; [assumption|]. split; [intros x y Q; apply S2 in Q; lia|]. split; [assumption|].
    pose proof (layout_grow (map back (met w)) (at_rank w) (at_token w) (at_rank w) (S (at_token w))). lia.
Qed.

Lemma gap_walk : forall M k ms n m, at_rank (plain_walk M ms) <= n -> at_token (plain_walk M ms) <= m ->
  k = Nat.max (n - at_rank (plain_walk M ms)) (m - at_token (plain_walk M ms)) ->
  exists ms', length ms' = k /\ at_rank (plain_walk M (ms ++ ms')) = n /\ at_token (plain_walk M (ms ++ ms')) = m /\
    length (met (plain_walk M ms)) <= length (met (plain_walk M (ms ++ ms'))).
Proof.
  intros M. induction k as [|k IH]; intros ms n m A B K.
  - exists []. rewrite app_nil_r. split; [reflexivity|]. split; [lia|]. split; lia.
  - set (mv := if at_rank (plain_walk M ms) <? n then (if at_token (plain_walk M ms) <? m then Pair else Omit) else Add).
    assert (ST : at_rank (plain_walk M (ms ++ [mv])) <= n /\ at_token (plain_walk M (ms ++ [mv])) <= m /\
      k = Nat.max (n - at_rank (plain_walk M (ms ++ [mv]))) (m - at_token (plain_walk M (ms ++ [mv]))) /\
      length (met (plain_walk M ms)) <= length (met (plain_walk M (ms ++ [mv])))).
    { rewrite plain_snoc. unfold mv. destruct (at_rank (plain_walk M ms) <? n) eqn:E1; [apply Nat.ltb_lt in E1|apply Nat.ltb_ge in E1].
      - destruct (at_token (plain_walk M ms) <? m) eqn:E2; [apply Nat.ltb_lt in E2|apply Nat.ltb_ge in E2]; cbn [plain_step at_rank at_token met];
          [destruct (M _ _); [rewrite app_length; cbn [length]|]|]; lia.
      - cbn [plain_step at_rank at_token met]. lia. }
    destruct ST as [C [D [K2 E]]]. destruct (IH (ms ++ [mv]) n m C D K2) as [ms' [L [R [T F]]]]. exists (mv :: ms'). rewrite <- app_assoc in *. cbn [app] in *.
    split; [cbn [length]; lia|]. split; [assumption|]. split; [assumption|lia].
Qed.

Lemma layout_walk : forall M P n m, StronglySorted up P -> (forall x y, In (x, y) P -> x < n /\ y < m /\ M (S y) (S x) = true) ->
  exists ms, length ms = length (layout 0 0 n m P) /\ at_rank (plain_walk M ms) = n /\ at_token (plain_walk M ms) = m /\
    length P <= length (met (plain_walk M ms)).
Proof.
  intros M. induction P as [|[x y] P IH] using rev_ind; intros n m ST H.
  - destruct (gap_walk M (Nat.max n m) [] n m) as [ms [L [R [T F]]]]; [cbn; lia|cbn; lia|cbn [at_rank at_token plain_walk fold_left]; lia|].
    exists ms. cbn [app] in *. cbn [layout]. rewrite gap_length. split; [lia|]. split; [assumption|]. split; [assumption|]. cbn [length]. lia.
  - apply sorted_unsnoc in ST as [ST U]. destruct (H x y) as [X [Y Z]]; [apply in_or_app; right; left; reflexivity|].
    destruct (IH x y ST) as [ms [L [R [T F]]]].
    { intros x' y' Q. pose proof (U _ Q) as V. unfold up in V. cbn [fst snd] in V. destruct (H x' y') as [_ [_ V3]]; [apply in_or_app; left; assumption|]. split; [lia|]. split; [lia|assumption]. }
    assert (HIT : at_rank (plain_walk M (ms ++ [Pair])) = S x /\ at_token (plain_walk M (ms ++ [Pair])) = S y /\ length (met (plain_walk M (ms ++ [Pair]))) = S (length (met (plain_walk M ms)))).
    { rewrite plain_snoc. cbn [plain_step at_rank at_token met]. rewrite R, T, Z, app_length. cbn [length]. lia. }
    destruct HIT as [H1 [H2 H3]].
    destruct (gap_walk M (Nat.max (n - S x) (m - S y)) (ms ++ [Pair]) n m) as [ms' [L' [R' [T' F']]]]; [lia|lia|rewrite H1, H2; reflexivity|].
    exists ((ms ++ [Pair]) ++ ms'). split; [|split; [assumption|split; [assumption|]]].
    + rewrite layout_snoc, !app_length. cbn [length]. rewrite gap_length. lia.
    + rewrite app_length. cbn [length]. lia.
Qed.

(** ** The ranks of a graph of two witnesses *)
Lemma chain_mono : forall (rk : vid -> nat) L, (forall u v, In (u, v) (pairs L) -> rk u < rk v) ->
  forall j i u v, i < j -> nth_error L i = Some u -> nth_error L j = Some v -> rk u < rk v.
Proof.
  intros rk L H. induction j as [|j IH]; intros i u v IJ Hu Hv; [lia|].
  assert (L1 : j < length L) by (assert (S j < length L) by (apply nth_error_Some; congruence); lia).
  destruct (nth_error_lt_ex L j L1) as [w Hw]. pose proof (H w v (pairs_nth L j w v Hw Hv)) as Q.
  destruct (Nat.eq_dec i j) as [->|N]; [congruence|]. assert (rk u < rk w) by (apply (IH i); [lia|assumption|assumption]). lia.
Qed.

Lemma nth_unique : forall {A} (L : list A) i j v, NoDup L -> nth_error L i = Some v -> nth_error L j = Some v -> i = j.
Proof. intros A L i j v ND Hi Hj. apply (proj1 (NoDup_nth_error L) ND); [apply nth_error_Some; congruence|congruence]. Qed.

Section TwoPaths.
  Variables (g : graph) (wp1 wp2 : wpath) (rk : vid -> nat) (m : nat) (l : list vid).
  Hypothesis GI : graph_of g [wp1; wp2].
  Hypothesis RO : rank_ok g rk m l.

  Lemma two_edge : forall u v, edge g u v <-> In (u, v) (pairs (chain wp1)) \/ In (u, v) (pairs (chain wp2)).
  Proof.
    intros u v. rewrite (graph_edge_path g _ u v GI). split.
    - intros [p [[<-|[<-|[]]] Q]]; auto.
    - intros [Q|Q]; eexists; (split; [|exact Q]); [left|right; left]; reflexivity.
  Qed.
  Lemma two_vertex : forall v, In v (vertices g) <-> In v (chain wp1) \/ In v (chain wp2).
  Proof.
    assert (MP : made_of_paths g [wp1; wp2]) by (apply graph_made_of_paths; [discriminate|rewrite (graph_of_near _ _ GI); assumption]).
    intros v. split.
    - intros H. destruct (gi_cover _ _ GI v H) as [->|[->|[p [ts [Hp Hi]]]]].
      + left. left. reflexivity.
      + left. right. apply in_or_app. right. left. reflexivity.
      + apply (in_map fst) in Hi. cbn [fst] in Hi. destruct Hp as [<-|[<-|[]]]; [left|right]; right; apply in_or_app; left; assumption.
    - assert (G : forall p, In p [wp1; wp2] -> In v (chain p) -> In v (vertices g)).
      { intros p Hp Q. unfold chain in Q. destruct Q as [<-|Q]; [apply (start_In g _ GI)|]. apply in_app_or in Q as [Q|[<-|[]]]; [|apply (end_In g _ GI)].
        apply in_map_iff in Q as [[v' ts] [<- Q]]. apply (gi_on _ _ GI p v' ts Hp Q). }
      intros [Q|Q]; [apply (G wp1)|apply (G wp2)]; auto; [left; reflexivity|right; left; reflexivity].
  Qed.
  Lemma pred_rank : forall u v, edge g u v -> exists u', edge g u' v /\ rk v = S (rk u').
  Proof.
    intros u v E. pose proof (ro_edge _ _ _ _ RO u v E) as L.
    assert (Hv : In v (vertices g)).
    { apply two_vertex. apply two_edge in E as [E|E]; [left|right]; apply pairs_nth_inv in E as [i [_ E]]; apply nth_error_In in E; assumption. }
    pose proof (ro_eq _ _ _ _ RO v Hv) as Q. destruct (rk v) as [|k] eqn:K; [lia|]. symmetry in Q. destruct (rank_of_pos _ _ _ _ Q) as [u' [A B]].
    exists u'. split; [assumption|congruence].
  Qed.
  Lemma two_nodup1 : NoDup (chain wp1). Proof. apply (gi_simple _ _ GI). left. reflexivity. Qed.
  Lemma two_nodup2 : NoDup (chain wp2). Proof. apply (gi_simple _ _ GI). right. left. reflexivity. Qed.

  Lemma two_one1 : forall i u v, nth_error (chain wp1) i = Some u -> nth_error (chain wp1) (S i) = Some v -> ~ In v (chain wp2) -> rk v = S (rk u).
  Proof.
    intros i u v Hu Hv N. destruct (pred_rank u v) as [u' [E R]]; [apply two_edge; left; apply (pairs_nth _ i); assumption|].
    apply two_edge in E as [E|E]; apply pairs_nth_inv in E as [i' [A B]]; [|exfalso; apply N; apply nth_error_In in B; assumption].
    assert (S i' = S i) by (apply (nth_unique (chain wp1) _ _ v two_nodup1); assumption). assert (i' = i) by lia. subst i'. congruence.
  Qed.
  Lemma two_one2 : forall i u v, nth_error (chain wp2) i = Some u -> nth_error (chain wp2) (S i) = Some v -> ~ In v (chain wp1) -> rk v = S (rk u).
  Proof.
    intros i u v Hu Hv N. destruct (pred_rank u v) as [u' [E R]]; [apply two_edge; right; apply (pairs_nth _ i); assumption|].
    apply two_edge in E as [E|E]; apply pairs_nth_inv in E as [i' [A B]]; [exfalso; apply N; apply nth_error_In in B; assumption|].
    assert (S i' = S i) by (apply (nth_unique (chain wp2) _ _ v two_nodup2); assumption). assert (i' = i) by lia. subst i'. congruence.
  Qed.
  Lemma two_both : forall i j u1 u2 v, nth_error (chain wp1) i = Some u1 -> nth_error (chain wp1) (S i) = Some v ->
    nth_error (chain wp2) j = Some u2 -> nth_error (chain wp2) (S j) = Some v -> rk v = S (Nat.max (rk u1) (rk u2)).
  Proof.
    intros i j u1 u2 v A1 A2 B1 B2.
    assert (E1 : edge g u1 v) by (apply two_edge; left; apply (pairs_nth _ i); assumption).
    assert (E2 : edge g u2 v) by (apply two_edge; right; apply (pairs_nth _ j); assumption).
    destruct (pred_rank u1 v E1) as [u' [E R]]. pose proof (ro_edge _ _ _ _ RO _ _ E1). pose proof (ro_edge _ _ _ _ RO _ _ E2).
    apply two_edge in E as [E|E]; apply pairs_nth_inv in E as [i' [A B]].
    - assert (S i' = S i) by (apply (nth_unique (chain wp1) _ _ v two_nodup1); assumption). assert (i' = i) by lia. subst i'. assert (u' = u1) by congruence. subst. lia.
    - assert (S i' = S j) by (apply (nth_unique (chain wp2) _ _ v two_nodup2); assumption). assert (i' = j) by lia. subst i'. assert (u' = u2) by congruence. subst. lia.
  Qed.
  Lemma two_mono1 : forall i j u v, i < j -> nth_error (chain wp1) i = Some u -> nth_error (chain wp1) j = Some v -> rk u < rk v.
  Proof. intros i j u v. apply chain_mono. intros a b Q. apply (ro_edge _ _ _ _ RO). apply two_edge. left. assumption. Qed.
  Lemma two_mono2 : forall i j u v, i < j -> nth_error (chain wp2) i = Some u -> nth_error (chain wp2) j = Some v -> rk u < rk v.
  Proof. intros i j u v. apply chain_mono. intros a b Q. apply (ro_edge _ _ _ _ RO). apply two_edge. right. assumption. Qed.

  Let a := map fst (snd wp1).
  Let b := map fst (snd wp2).
  Theorem two_layout : exists P, StronglySorted up P /\
    (forall x y, In (x, y) P <-> exists v, nth_error a x = Some v /\ nth_error b y = Some v) /\
    placed_at a b rk 1 (layout 0 0 (length a) (length b) P) /\ rk v_end = 1 + length (layout 0 0 (length a) (length b) P).
  Proof.
    destruct (common_pairs rk a b 0) as [P [ST SH]].
    - intros i j u v IJ Hu Hv. apply (two_mono1 (S i) (S j)); [lia| |]; apply a_nth; assumption.
    - intros i j u v IJ Hu Hv. apply (two_mono2 (S i) (S j)); [lia| |]; apply b_nth; assumption.
    - assert (SH' : forall x y, In (x, y) P <-> exists v, nth_error a x = Some v /\ nth_error b y = Some v).
      { intros x y. rewrite SH, Nat.sub_0_r. split; [intros [_ Q]; exact Q|intros Q; split; [lia|exact Q]]. }
      exists P. split; [assumption|]. split; [assumption|].
      pose proof (rank_start g _ rk m l GI RO) as R0.
      destruct (layout_ranks a b v_start v_end rk two_nodup1 two_nodup2 two_one1 two_one2 two_both two_mono1 two_mono2 P 0 0 v_start) as [A B]; auto; try lia.
      { intros x y. rewrite SH'. split; [intros Q; split; [lia|split; [lia|exact Q]]|intros [_ [_ Q]]; exact Q]. }
      rewrite R0 in *. split; assumption.
  Qed.

  (** *** The table *)
  Let W := [wp1; wp2].
  Lemma two_ranks : forall k rvs, nth_error (table_ranks rk m l) k = Some rvs -> fst rvs = S k /\ In rvs (ranks_table rk m l).
  Proof.
    intros k [r vs] H. assert (NW : W <> []) by discriminate.
    destruct (placed_ranks g W rk m l (ranking_for rk m l) GI NW RO (base_placed g W rk m l GI NW RO rk m l RO)) as [A _].
    split; [|apply nth_error_In in H; unfold table_ranks in H; apply filter_In in H; tauto].
    apply (map_nth_error fst) in H. unfold table_ranks, ranks_table in H. rewrite A in H. cbn [fst] in *.
    assert (L : k < m - 2) by (rewrite <- (seq_length (m - 2) 1); apply nth_error_Some; congruence). rewrite nth_error_seq in H by assumption. injection H as <-. reflexivity.
  Qed.
  Lemma two_ranks_length : length (table_ranks rk m l) = rk v_end - 1.
  Proof.
    assert (NW : W <> []) by discriminate.
    destruct (placed_ranks g W rk m l (ranking_for rk m l) GI NW RO (base_placed g W rk m l GI NW RO rk m l RO)) as [A _].
    unfold table_ranks, ranks_table. rewrite <- (map_length fst), A, seq_length. pose proof (rank_end_max g W rk m l GI RO NW). lia.
  Qed.

  Lemma cell_value : forall p r vs, In p W -> In (r, vs) (ranks_table rk m l) ->
    (forall v ts, In (v, ts) (snd p) -> rk v = r -> dget str_eqb (fst p) (cells_of W vs) = Some ts) /\
    ((forall v ts, In (v, ts) (snd p) -> rk v <> r) -> dget str_eqb (fst p) (cells_of W vs) = None).
  Proof.
    intros p r vs Hp Hr. destruct (ranks_vs g W rk m l GI RO r vs Hr) as [NV V]. split.
    - intros v ts Hi R. destruct (cell_of g W rk m l GI p r vs Hp Hr) as [D|[v' [ts' [A [B D]]]]].
      + exfalso. assert (Hv : In v vs) by (apply V; split; [apply (gi_on _ _ GI p v ts Hp Hi)|assumption]).
        assert (K : In (fst p) (map fst (cells_of W vs))).
        { apply in_map_iff. exists (fst p, ts). split; [reflexivity|]. apply in_flat_map. exists v. split; [assumption|]. apply tokens_on_In. exists p.
          split; [assumption|]. split; [reflexivity|]. apply (In_dget _ nat_eqb_ok); [apply (path_uniq g W GI p Hp)|assumption]. }
        destruct (dget_Some_key _ str_eqb_ok _ _ K) as [x E]. congruence.
      + rewrite D. apply V in A as [_ A]. destruct (same_rank W rk (path_sorted g W rk m l GI RO) p v' ts' v ts Hp B Hi) as [_ ->]; [congruence|reflexivity].
    - intros N. destruct (cell_of g W rk m l GI p r vs Hp Hr) as [D|[v' [ts' [A [B D]]]]]; [assumption|]. exfalso. apply V in A as [_ A]. apply (N v' ts' B A).
  Qed.

  Definition cell_is (wp : wpath) (x : option nat) (c : cell) : Prop :=
    match x with None => c = None | Some x => exists v ts, nth_error (snd wp) x = Some (v, ts) /\ c = Some ts end.

  Theorem two_table : exists P, let C := layout 0 0 (length (snd wp1)) (length (snd wp2)) P in
    StronglySorted up P /\
    (forall x y, In (x, y) P <-> exists v, nth_error a x = Some v /\ nth_error b y = Some v) /\
    let t := the_table W rk m l [fst wp1; fst wp2] in
    (exists c1 c2, t_rows t = [{| r_header := fst wp1; r_cells := c1 |}; {| r_header := fst wp2; r_cells := c2 |}] /\
      Forall2 (cell_is wp1) (map fst C) c1 /\ Forall2 (cell_is wp2) (map snd C) c2) /\
    Forall2 (fun c col => c_variant col = false <-> exists x y, c = (Some x, Some y) /\ In (x, y) P) C (t_columns t).
  Proof.
    destruct two_layout as [P [ST [SH [PL RE]]]]. exists P. cbv zeta.
    assert (LA : length a = length (snd wp1)) by apply map_length. assert (LB : length b = length (snd wp2)) by apply map_length.
    rewrite LA, LB in *. set (C := layout 0 0 (length (snd wp1)) (length (snd wp2)) P) in *.
    assert (H1 : In wp1 W) by (left; reflexivity). assert (H2 : In wp2 W) by (right; left; reflexivity).
    assert (LT : length (table_ranks rk m l) = length C) by (rewrite two_ranks_length; lia).
    assert (IN : forall x y, In (x, y) P -> 0 <= x < length (snd wp1) /\ 0 <= y < length (snd wp2)).
    { intros x y Q. apply SH in Q as [v [Q1 Q2]]. assert (x < length a) by (apply nth_error_Some; congruence). assert (y < length b) by (apply nth_error_Some; congruence). lia. }
    assert (NA : forall x v, nth_error a x = Some v -> exists ts, nth_error (snd wp1) x = Some (v, ts)).
    { intros x v Q. unfold a in Q. rewrite nth_error_map in Q. destruct (nth_error (snd wp1) x) as [[v' ts]|]; [|discriminate]. cbn in Q. injection Q as ->. eauto. }
    assert (NB : forall x v, nth_error b x = Some v -> exists ts, nth_error (snd wp2) x = Some (v, ts)).
    { intros x v Q. unfold b in Q. rewrite nth_error_map in Q. destruct (nth_error (snd wp2) x) as [[v' ts]|]; [|discriminate]. cbn in Q. injection Q as ->. eauto. }
    split; [assumption|]. split; [assumption|]. split.
    - unfold the_table. cbn [t_rows t_columns map length construct_row]. do 2 eexists. split; [reflexivity|]. split.
      + apply Forall2_pointwise; [rewrite !map_length; lia|]. intros k o c Ho Hc. rewrite !nth_error_map in *.
        destruct (nth_error C k) as [cc|] eqn:EC; [|discriminate]. cbn in Ho. injection Ho as <-.
        destruct (nth_error (table_ranks rk m l) k) as [[r vs]|] eqn:ER; [|discriminate]. cbn in Hc. injection Hc as <-.
        destruct (two_ranks k _ ER) as [E1 E2]. cbn [fst] in E1. subst r. destruct (cell_value wp1 (S k) vs H1 E2) as [V1 V2].
        destruct (PL k cc EC) as [P1 _]. unfold cell_is. destruct (fst cc) as [x|] eqn:FX.
        * destruct (P1 x eq_refl) as [v [Q1 Q2]]. destruct (NA x v Q1) as [ts Q3]. exists v, ts. split; [assumption|]. apply (V1 v); [apply nth_error_In in Q3; assumption|lia].
        * apply V2. intros v ts Hi R. apply In_nth_error in Hi as [x Hx]. assert (XL : x < length (snd wp1)) by (apply nth_error_Some; congruence).
          assert (Q := layout_first P 0 0 (length (snd wp1)) (length (snd wp2)) x ST IN ltac:(lia)). fold C in Q. apply In_nth_error in Q as [k' Q].
          rewrite nth_error_map in Q. destruct (nth_error C k') as [c'|] eqn:EC'; [|discriminate]. cbn in Q. injection Q as Q.
          destruct (PL k' c' EC') as [P1' _]. destruct (P1' x Q) as [v' [Q1 Q2]]. destruct (NA x v' Q1) as [ts' Q3]. rewrite Hx in Q3. injection Q3 as <- _.
          assert (k' = k) by lia. subst k'. rewrite EC in EC'. injection EC' as <-. congruence.
      + apply Forall2_pointwise; [rewrite !map_length; lia|]. intros k o c Ho Hc. rewrite !nth_error_map in *.
        destruct (nth_error C k) as [cc|] eqn:EC; [|discriminate]. cbn in Ho. injection Ho as <-.
        destruct (nth_error (table_ranks rk m l) k) as [[r vs]|] eqn:ER; [|discriminate]. cbn in Hc. injection Hc as <-.
        destruct (two_ranks k _ ER) as [E1 E2]. cbn [fst] in E1. subst r. destruct (cell_value wp2 (S k) vs H2 E2) as [V1 V2].
        destruct (PL k cc EC) as [_ P1]. unfold cell_is. destruct (snd cc) as [x|] eqn:FX.
        * destruct (P1 x eq_refl) as [v [Q1 Q2]]. destruct (NB x v Q1) as [ts Q3]. exists v, ts. split; [assumption|]. apply (V1 v); [apply nth_error_In in Q3; assumption|lia].
        * apply V2. intros v ts Hi R. apply In_nth_error in Hi as [x Hx]. assert (XL : x < length (snd wp2)) by (apply nth_error_Some; congruence).
          assert (Q := layout_second P 0 0 (length (snd wp1)) (length (snd wp2)) x ST IN ltac:(lia)). fold C in Q. apply In_nth_error in Q as [k' Q].
          rewrite nth_error_map in Q. destruct (nth_error C k') as [c'|] eqn:EC'; [|discriminate]. cbn in Q. injection Q as Q.
          destruct (PL k' c' EC') as [_ P1']. destruct (P1' x Q) as [v' [Q1 Q2]]. destruct (NB x v' Q1) as [ts' Q3]. rewrite Hx in Q3. injection Q3 as <- _.
          assert (k' = k) by lia. subst k'. rewrite EC in EC'. injection EC' as <-. congruence.
    - unfold the_table. cbn [t_columns]. apply Forall2_pointwise; [rewrite map_length; lia|]. intros k c col EC Hc. rewrite nth_error_map in Hc.
      destruct (nth_error (table_ranks rk m l) k) as [[r vs]|] eqn:ER; [|discriminate]. cbn in Hc. injection Hc as <-.
      destruct (two_ranks k _ ER) as [E1 E2]. cbn [fst] in E1. subst r. destruct (ranks_vs g W rk m l GI RO (S k) vs E2) as [NV V].
      cbn [c_variant mkcol snd]. split.
      + intros Q. apply orb_false_iff in Q as [Q1 Q2]. apply Nat.ltb_ge in Q1. apply negb_false_iff in Q2. apply Nat.eqb_eq in Q2. cbn [length] in Q2.
        destruct vs as [|v [|? ?]]; [discriminate| |cbn [length] in Q1; lia]. unfold cells_of in Q2. cbn [flat_map] in Q2. rewrite app_nil_r in Q2.
        unfold tokens_on, W in Q2. cbn [flat_map] in Q2.
        destruct (dget Nat.eqb v (snd wp1)) as [ts1|] eqn:D1; [|destruct (dget Nat.eqb v (snd wp2)); discriminate].
        destruct (dget Nat.eqb v (snd wp2)) as [ts2|] eqn:D2; [|discriminate].
        apply (dget_In _ nat_eqb_ok) in D1, D2. apply (in_map fst) in D1, D2. cbn [fst] in D1, D2. fold a in D1. fold b in D2.
        apply In_nth_error in D1 as [x D1]. apply In_nth_error in D2 as [y D2].
        assert (HP : In (x, y) P) by (apply SH; eauto). pose proof (layout_pair P 0 0 (length (snd wp1)) (length (snd wp2)) x y HP) as HC. fold C in HC.
        apply In_nth_error in HC as [k' HC]. destruct (PL k' _ HC) as [PX _]. destruct (PX x eq_refl) as [v' [Q3 Q4]]. rewrite D1 in Q3. injection Q3 as <-.
        destruct (proj1 (V v) (or_introl eq_refl)) as [_ RV]. assert (k' = k) by lia. subst k'. rewrite EC in HC. injection HC as ->. eauto.
      + intros [x [y [-> HP]]]. apply SH in HP as [v [D1 D2]]. destruct (PL k _ EC) as [PX _]. destruct (PX x eq_refl) as [v' [Q3 Q4]]. rewrite D1 in Q3. injection Q3 as <-.
        assert (U : forall u, In u vs -> u = v).
        { intros u Hu. apply V in Hu as [U1 U2]. apply two_vertex in U1 as [U1|U1]; apply In_nth_error in U1 as [q U1].
          - pose proof (a_nth a v_start v_end x v D1) as D. destruct (lt_eq_lt_dec q (S x)) as [[Z|Z]|Z].
            + pose proof (two_mono1 _ _ _ _ Z U1 D). lia.
            + subst q. change (chain wp1) with (v_start :: a ++ [v_end]) in U1. congruence.
            + pose proof (two_mono1 _ _ _ _ Z D U1). lia.
          - pose proof (b_nth b v_start v_end y v D2) as D. destruct (lt_eq_lt_dec q (S y)) as [[Z|Z]|Z].
            + pose proof (two_mono2 _ _ _ _ Z U1 D). lia.
            + subst q. change (chain wp2) with (v_start :: b ++ [v_end]) in U1. congruence.
            + pose proof (two_mono2 _ _ _ _ Z D U1). lia. }
        assert (Hv : In v vs).
        { apply V. split; [|lia]. apply two_vertex. left. apply nth_error_In in D1. right. apply in_or_app. left. assumption. }
        assert (VS : vs = [v]).
        { destruct vs as [|u1 [|u2 r]]; [destruct Hv|f_equal; apply U; left; reflexivity|]. exfalso. rewrite (U u1), (U u2) in NV by (cbn; auto). inversion NV as [|? ? N _]. apply N. left. reflexivity. }
        subst vs. unfold cells_of, tokens_on, W. cbn [flat_map length Nat.ltb Nat.leb orb].
        apply nth_error_In in D1, D2. destruct (dget_Some_key _ nat_eqb_ok v (snd wp1) D1) as [t1 ->]. destruct (dget_Some_key _ nat_eqb_ok v (snd wp2) D2) as [t2 ->]. reflexivity.
  Qed.
End TwoPaths.

(** The scorer's walk never has less than the usual score, and has it where there is no Add. *)
Lemma walk_above : forall M ms, at_rank (walk M ms) = at_rank (plain_walk M ms) /\ at_token (walk M ms) = at_token (plain_walk M ms) /\
  (points (plain_walk M ms) <= points (walk M ms))%Z.
Proof.
  intros M. induction ms as [|m ms [R [T Q]]] using rev_ind; [split; [reflexivity|split; [reflexivity|cbn; lia]]|].
  rewrite walk_snoc, plain_snoc. destruct m; cbn [step plain_step at_rank at_token points is_hit]; rewrite ?R, ?T.
  - split; [reflexivity|]. split; [reflexivity|]. destruct (M _ _); lia.
  - split; [reflexivity|]. split; [reflexivity|lia].
  - split; [reflexivity|]. split; [reflexivity|]. destruct (_ && _); lia.
Qed.
Lemma walk_adds : forall M ms, at_rank (walk M ms) + count Add ms = length ms /\ length (met (walk M ms)) <= at_token (walk M ms) /\
  points (walk M ms) = (2 * Z.of_nat (length (met (walk M ms))) - Z.of_nat (length ms))%Z.
Proof.
  intros M. induction ms as [|m ms [R [T Q]]] using rev_ind; [split; [reflexivity|split; [cbn; lia|reflexivity]]|].
  rewrite walk_snoc, count_app, app_length. cbn [length]. destruct m; cbn [step at_rank at_token points met is_hit count].
  - destruct (M _ _); rewrite ?app_length; cbn [length]; lia.
  - lia.
  - destruct (_ && _); rewrite ?app_length; cbn [length]; lia.
Qed.
Lemma walk_no_adds : forall M ms, count Add ms = 0 -> walk M ms = plain_walk M ms.
Proof.
  intros M. induction ms as [|m ms IH] using rev_ind; intros H; [reflexivity|]. rewrite count_app in H. rewrite walk_snoc, plain_snoc, IH by lia.
  destruct m; [reflexivity|reflexivity|]. cbn [count] in H. lia.
Qed.

(** ** Counting columns *)
Lemma filter_none : forall {A} (f : A -> bool) l, (forall a, In a l -> f a = false) -> filter f l = [].
Proof. induction l as [|a l IH]; intros H; [reflexivity|]. cbn [filter]. rewrite (H a) by (left; reflexivity). apply IH. intros; apply H; right; assumption. Qed.

Lemma gap_In : forall i x j y c, In c (gap i x j y) ->
  (forall q, fst c = Some q -> i <= q < x) /\ (forall q, snd c = Some q -> j <= q < y).
Proof.
  intros i x j y c H. unfold gap in H. apply in_map_iff in H as [k [<- _]]. cbn [fst snd]. split; intros q Q.
  - destruct (i + k <? x) eqn:E; [|discriminate]. apply Nat.ltb_lt in E. injection Q as <-. lia.
  - destruct (j + k <? y) eqn:E; [|discriminate]. apply Nat.ltb_lt in E. injection Q as <-. lia.
Qed.

Lemma layout_count : forall (f : option nat * option nat -> bool) P i j n m, StronglySorted up P ->
  (forall c, f c = true -> exists x y, c = (Some x, Some y)) ->
  (forall x y, i <= x -> j <= y -> f (Some x, Some y) = true <-> In (x, y) P) ->
  (forall x y, In (x, y) P -> i <= x /\ j <= y) ->
  length (filter f (layout i j n m P)) = length P.
Proof.
  intros f. induction P as [|[x y] P IH]; intros i j n m ST FS FP IN; cbn [layout].
  - rewrite filter_none; [reflexivity|]. intros c H. destruct (f c) eqn:E; [|reflexivity]. exfalso. destruct (FS c E) as [x [y ->]].
    destruct (gap_In _ _ _ _ _ H) as [A B]. specialize (A x eq_refl). specialize (B y eq_refl). apply (FP x y); [lia|lia|assumption].
  - inversion ST as [|? ? ST1 ST2]; subst. rewrite Forall_forall in ST2. destruct (IN x y (or_introl eq_refl)) as [X Y].
    rewrite filter_app. rewrite (filter_none f (gap i x j y)).
    + cbn [app filter]. rewrite (proj2 (FP x y X Y) (or_introl eq_refl)). cbn [length]. f_equal. apply IH; auto.
      * intros x' y' A B. rewrite FP by lia. split; [intros [Q|Q]; [injection Q as -> ->; lia|assumption]|right; assumption].
      * intros x' y' Q. apply ST2 in Q. unfold up in Q. cbn [fst snd] in Q. lia.
    + intros c H. destruct (f c) eqn:E; [|reflexivity]. exfalso. destruct (FS c E) as [x' [y' ->]].
      destruct (gap_In _ _ _ _ _ H) as [A B]. specialize (A x' eq_refl). specialize (B y' eq_refl). assert (Q : In (x', y') ((x, y) :: P)) by (apply FP; [lia|lia|assumption]).
      destruct Q as [Q|Q]; [injection Q as -> ->; lia|]. apply ST2 in Q. unfold up in Q. cbn [fst snd] in Q. lia.
Qed.

Definition pair_dec : forall x y : nat * nat, {x = y} + {x <> y}.
Proof. decide equality; apply Nat.eq_dec. Defined.
Definition paired (P : list (nat * nat)) (c : option nat * option nat) : bool :=
  match c with (Some x, Some y) => if in_dec pair_dec (x, y) P then true else false | _ => false end.
Lemma paired_iff : forall P c, paired P c = true <-> exists x y, c = (Some x, Some y) /\ In (x, y) P.
Proof.
  intros P [[x|] [y|]]; cbn [paired].
  - destruct (in_dec pair_dec (x, y) P) as [H|H]; split; try discriminate; [eauto|auto|]. intros [x' [y' [E Q]]]. injection E as -> ->. contradiction.
  - split; [discriminate|intros [x' [y' [E _]]]; discriminate].
  - split; [discriminate|intros [x' [y' [E _]]]; discriminate].
  - split; [discriminate|intros [x' [y' [E _]]]; discriminate].
Qed.

Lemma filter_length_Forall2 : forall {A B} (f : A -> bool) (h : B -> bool) l1 l2, Forall2 (fun a b => h b = f a) l1 l2 ->
  length (filter h l2) = length (filter f l1).
Proof. induction 1 as [|a b l1 l2 E F IH]; [reflexivity|]. cbn [filter]. rewrite E. destruct (f a); cbn [length]; congruence. Qed.
Lemma filter_negb : forall {A} (f : A -> bool) l, length (filter f l) + length (filter (fun x => negb (f x)) l) = length l.
Proof. induction l as [|a l IH]; [reflexivity|]. cbn [filter]. destruct (f a); cbn [negb length]; lia. Qed.

Lemma score_balance : forall P n m t, StronglySorted up P ->
  Forall2 (fun c col => c_variant col = false <-> exists x y, c = (Some x, Some y) /\ In (x, y) P) (layout 0 0 n m P) (t_columns t) ->
  table_score t = balance n m P.
Proof.
  intros P n m t ST F. unfold table_score, balance.
  assert (Q : length (filter (fun col => negb (c_variant col)) (t_columns t)) = length P).
  { transitivity (length (filter (paired P) (layout 0 0 n m P))).
    - apply filter_length_Forall2. eapply Forall2_impl; [|exact F]. intros c col H. cbn beta in H. rewrite <- paired_iff in H.
      destruct (c_variant col), (paired P c); cbn [negb]; intuition congruence.
    - apply layout_count; [assumption| | |].
      + intros c H. apply paired_iff in H as [x [y [-> _]]]. eauto.
      + intros x y _ _. rewrite paired_iff. split; [intros [x' [y' [E H]]]; injection E as -> ->; assumption|eauto].
      + intros; lia. }
  pose proof (filter_negb c_variant (t_columns t)) as S1. apply Forall2_len in F. lia.
Qed.

(** ** Exchanging the texts *)
Definition flip {A B} (p : A * B) : B * A := (snd p, fst p).
Lemma gap_flip : forall i x j y, gap j y i x = map flip (gap i x j y).
Proof. intros. unfold gap. rewrite map_map, Nat.max_comm. reflexivity. Qed.
Lemma layout_flip : forall P i j n m, layout j i m n (map flip P) = map flip (layout i j n m P).
Proof.
  induction P as [|[x y] P IH]; intros i j n m; cbn [map layout flip fst snd]; [apply gap_flip|]. unfold flip at 1. cbn [fst snd layout].
  rewrite IH, gap_flip, map_app. reflexivity.
Qed.
Lemma balance_flip : forall P n m, balance m n (map flip P) = balance n m P.
Proof. intros. unfold balance. rewrite layout_flip, !map_length. reflexivity. Qed.
Lemma agreeing_flip : forall a b P, agreeing a b P -> agreeing b a (map flip P).
Proof.
  intros a b P [ST H]. split.
  - clear H. induction ST as [|p P ST IH F]; constructor; [assumption|]. rewrite Forall_forall in *. intros q Q. apply in_map_iff in Q as [q' [<- Q]].
    apply F in Q. unfold flip. cbn [fst snd]. tauto.
  - intros i j Q. apply in_map_iff in Q as [[x y] [E Q]]. unfold flip in E. cbn [fst snd] in E. injection E as <- <-. destruct (H x y Q) as [s [A B]]. eauto.
Qed.

(** ** Omissions *)
Definition is_some {A} (o : option A) : bool := match o with Some _ => true | None => false end.

Lemma gap_some : forall i x j y, length (filter (fun c => is_some (fst c)) (gap i x j y)) = x - i.
Proof.
  intros i x j y. unfold gap. set (M := Nat.max (x - i) (y - j)). assert (L : x - i <= M) by (unfold M; lia). clearbody M.
  replace M with ((x - i) + (M - (x - i))) by lia. rewrite seq_app, map_app, filter_app, app_length. rewrite filter_all.
  - rewrite map_length, seq_length, filter_none; [cbn [length]; lia|]. intros c H. apply in_map_iff in H as [k [<- H]]. apply in_seq in H. cbn [fst].
    replace (i + k <? x) with false by (symmetry; apply Nat.ltb_ge; lia). reflexivity.
  - intros c H. apply in_map_iff in H as [k [<- H]]. apply in_seq in H. cbn [fst]. replace (i + k <? x) with true by (symmetry; apply Nat.ltb_lt; lia). reflexivity.
Qed.

Lemma layout_some : forall P i j n m, StronglySorted up P -> (forall x y, In (x, y) P -> i <= x < n) -> i <= n ->
  length (filter (fun c => is_some (fst c)) (layout i j n m P)) = n - i.
Proof.
  induction P as [|[x y] P IH]; intros i j n m ST IN L; cbn [layout]; [apply gap_some|].
  rewrite filter_app, app_length, gap_some. cbn [filter fst is_some length]. pose proof (IN x y (or_introl eq_refl)) as X. inversion ST as [|? ? ST1 ST2]; subst.
  rewrite IH; [lia|assumption| |lia]. intros x' y' Q. pose proof (IN x' y' (or_intror Q)). rewrite Forall_forall in ST2. specialize (ST2 _ Q). unfold up in ST2. cbn [fst snd] in ST2. lia.
Qed.

Lemma filter_le : forall {A} (f : A -> bool) l, length (filter f l) <= length l.
Proof. induction l as [|a l IH]; [reflexivity|]. cbn [filter]. destruct (f a); cbn [length]; lia. Qed.
Lemma filter_full : forall {A} (f : A -> bool) l, length (filter f l) = length l -> forall a, In a l -> f a = true.
Proof.
  induction l as [|b l IH]; intros H a Ha; [destruct Ha|]. cbn [filter length] in H. pose proof (filter_le f l) as L. destruct (f b) eqn:E; cbn [length] in H; [|lia].
  destruct Ha as [<-|Ha]; [assumption|]. apply IH; [lia|assumption].
Qed.
Lemma filter_same : forall {A} (f h : A -> bool) l, (forall a, f a = true -> h a = true) -> length (filter f l) = length (filter h l) ->
  forall a, In a l -> h a = f a.
Proof.
  assert (LE : forall A (f h : A -> bool) l, (forall a, f a = true -> h a = true) -> length (filter f l) <= length (filter h l)).
  { intros A f h l H. induction l as [|a l IH]; [reflexivity|]. cbn [filter]. specialize (H a). destruct (f a); [rewrite H by reflexivity; cbn [length]; lia|]. destruct (h a); cbn [length]; lia. }
  intros A f h l H. induction l as [|b l IH]; intros E a Ha; [destruct Ha|]. pose proof (LE A f h l H) as L. cbn [filter] in E. pose proof (H b) as Hb.
  destruct Ha as [<-|Ha].
  - destruct (f b), (h b); auto. cbn [length] in E. lia.
  - apply IH; [|assumption]. destruct (f b); [rewrite Hb in E by reflexivity; cbn [length] in E; lia|]. destruct (h b); cbn [length] in E; lia.
Qed.

Lemma layout_shift : forall P i j n m, length (layout i j n m P) <= S (length (layout (S i) j n m P)).
Proof. intros [|[x y] P] i j n m; cbn [layout]; rewrite ?app_length; cbn [length]; rewrite !gap_length; lia. Qed.

Lemma sub_pairs : forall b a, subsequence b a -> forall i j, exists P,
  StronglySorted up P /\ (forall x y, In (x, y) P -> i <= x /\ j <= y /\ exists s, nth_error a (x - i) = Some s /\ nth_error b (y - j) = Some s) /\
  length P = length b /\ length (layout i j (i + length a) (j + length b) P) <= length a.
Proof.
  induction 1 as [a|s b a S IH|s b a S IH]; intros i j.
  - exists []. split; [constructor|]. split; [intros x y []|]. split; [reflexivity|]. cbn [layout length]. rewrite gap_length. lia.
  - destruct (IH (Datatypes.S i) (Datatypes.S j)) as [P [ST [AG [LP LL]]]]. exists ((i, j) :: P). split; [|split; [|split]].
    + constructor; [assumption|]. apply Forall_forall. intros [x y] Q. apply AG in Q. unfold up. cbn [fst snd]. lia.
    + intros x y [Q|Q].
      * injection Q as <- <-. split; [lia|]. split; [lia|]. rewrite !Nat.sub_diag. exists s. split; reflexivity.
      * destruct (AG x y Q) as [X [Y [s' [A B]]]]. split; [lia|]. split; [lia|]. exists s'.
        replace (x - i) with (Datatypes.S (x - Datatypes.S i)) by lia. replace (y - j) with (Datatypes.S (y - Datatypes.S j)) by lia. split; assumption.
    + cbn [length]. lia.
    + cbn [layout length]. rewrite app_length, gap_length. cbn [length]. replace (i + Datatypes.S (length a)) with (Datatypes.S i + length a) by lia.
      replace (j + Datatypes.S (length b)) with (Datatypes.S j + length b) by lia. lia.
  - destruct (IH (Datatypes.S i) j) as [P [ST [AG [LP LL]]]]. exists P. split; [assumption|]. split; [|split].
    + intros x y Q. destruct (AG x y Q) as [X [Y [s' [A B]]]]. split; [lia|]. split; [lia|]. exists s'. replace (x - i) with (Datatypes.S (x - Datatypes.S i)) by lia. split; assumption.
    + assumption.
    + pose proof (layout_shift P i j (Datatypes.S i + length a) (j + length b)). cbn [length]. replace (i + Datatypes.S (length a)) with (Datatypes.S i + length a) by lia. lia.
Qed.

Lemma sub_agreeing : forall b a, subsequence b a -> exists P, agreeing a b P /\ length P = length b /\ length (layout 0 0 (length a) (length b) P) <= length a.
Proof.
  intros b a H. destruct (sub_pairs b a H 0 0) as [P [ST [AG [LP LL]]]]. exists P. split; [|split; assumption]. split; [exact ST|].
  intros i j Q. destruct (AG i j Q) as [_ [_ [s [A B]]]]. rewrite Nat.sub_0_r in A, B. eauto.
Qed.

Lemma agreeing_bounds : forall a b P, agreeing a b P -> forall x y, In (x, y) P -> 0 <= x < length a /\ 0 <= y < length b.
Proof. intros a b P [_ H] x y Q. destruct (H x y Q) as [s [A B]]. assert (x < length a) by (apply nth_error_Some; congruence). assert (y < length b) by (apply nth_error_Some; congruence). lia. Qed.

Lemma agreeing_columns : forall a b P, agreeing a b P ->
  length (filter (fun c => is_some (fst c)) (layout 0 0 (length a) (length b) P)) = length a /\
  length (filter (fun c => is_some (snd c)) (layout 0 0 (length a) (length b) P)) = length b /\
  length (filter (paired P) (layout 0 0 (length a) (length b) P)) = length P.
Proof.
  intros a b P AG. pose proof (agreeing_bounds a b P AG) as BD. pose proof AG as [ST _]. split; [|split].
  - rewrite layout_some; [lia|exact ST| |lia]. intros x y Q. apply (BD x y Q).
  - pose proof (agreeing_flip _ _ _ AG) as [ST' _]. pose proof (agreeing_bounds _ _ _ (agreeing_flip _ _ _ AG)) as BD'.
    rewrite <- (Nat.sub_0_r (length b)) at 2. rewrite <- (layout_some (map flip P) 0 0 (length b) (length a) ST').
    + rewrite layout_flip. generalize (layout 0 0 (length a) (length b) P). induction l as [|c l IH]; [reflexivity|]. cbn [filter map flip fst]. destruct (is_some (snd c)); cbn [length]; congruence.
    + intros x y Q. apply (BD' x y Q).
    + lia.
  - apply layout_count; [exact ST| | |].
    + intros c H. apply paired_iff in H as [x [y [-> _]]]. eauto.
    + intros x y _ _. rewrite paired_iff. split; [intros [x' [y' [E H]]]; injection E as -> ->; assumption|eauto].
    + intros; lia.
Qed.

Lemma paired_some : forall P c, paired P c = true -> is_some (fst c) = true /\ is_some (snd c) = true.
Proof. intros P c H. apply paired_iff in H as [x [y [-> _]]]. split; reflexivity. Qed.

(** ** The alignment *)
Lemma came_readings : forall sg T ts, Forall2 (came_from sg) T ts -> map tk_str ts = map t0_str T.
Proof. induction 1 as [|a b T ts [H _] F IH]; [reflexivity|]. cbn [map]. congruence. Qed.

Lemma nth_map : forall {A B} (f : A -> B) l i y, nth_error (map f l) i = Some y -> exists x, nth_error l i = Some x /\ f x = y.
Proof. intros A B f l i y H. rewrite nth_error_map in H. destruct (nth_error l i) as [x|]; [|discriminate]. cbn in H. injection H as <-. eauto. Qed.

Lemma steps_at : forall ts p v t, length p = length ts -> In (v, [t]) (steps ts p) -> exists i, nth_error p i = Some v /\ nth_error ts i = Some t.
Proof.
  intros ts p v t L H. apply In_nth_error in H as [i H]. exists i. unfold steps in H.
  revert p ts L H. induction i as [|i IH]; intros [|u p] [|s ts] L H; try discriminate; cbn in *.
  - injection H as <- <-. auto.
  - apply IH; [lia|assumption].
Qed.

Section TwoAlign.
  Variables (g0 : graph) (rk : vid -> nat) (sg : str) (ts1 ts2 : list token) (p1 p2 : list vid) (filt : option props_filter).
  Variables (M : nat -> nat -> bool) (ms : list move).
  Let W0 := [(sg, steps ts1 p1)].
  Hypothesis LP1 : length p1 = length ts1.
  Hypothesis GI0 : graph_of g0 W0.
  Hypothesis LG : longest_from_start g0 rk.
  Hypothesis OS : optimal_step filt g0 rk W0 ts2 p2 M ms.
  Let A := map tk_str ts1.
  Let B := map tk_str ts2.

  Lemma ta_single : single_path g0 p1.
  Proof. apply (paths_single g0 p1 W0 GI0); [discriminate|]. intros wp [<-|[]]. apply steps_fst. assumption. Qed.
  Lemma ta_rank : forall i v, nth_error p1 i = Some v -> rk v = S i.
  Proof.
    intros i v H. apply (single_rank g0 p1 rk ta_single LG). cbn [nth_error]. rewrite nth_error_app1; [assumption|]. apply nth_error_Some. congruence.
  Qed.
  Lemma ta_end : rk v_end = S (length p1).
  Proof.
    apply (single_rank g0 p1 rk ta_single LG). cbn [nth_error]. rewrite nth_error_app2 by lia. rewrite Nat.sub_diag. reflexivity.
  Qed.
  Lemma ta_on : forall v s, on_vertex W0 v s -> exists i t, nth_error p1 i = Some v /\ nth_error ts1 i = Some t /\ tk_str t = s.
  Proof. intros v s [wp [t [[<-|[]] [H1 H2]]]]. destruct (steps_at _ _ _ _ LP1 H1) as [i [X Y]]. eauto 6. Qed.
  Lemma ta_in : forall i v, nth_error p1 i = Some v -> In v (vertices g0).
  Proof. intros i v H. apply ta_single. right. apply in_or_app. left. apply nth_error_In in H. assumption. Qed.
  Lemma p1_inj : forall i j v, nth_error p1 i = Some v -> nth_error p1 j = Some v -> i = j.
  Proof. intros i j v H1 H2. apply ta_rank in H1, H2. lia. Qed.

  (** Vertices in common have equal readings. *)
  Lemma ta_agree : forall x y v, nth_error p1 x = Some v -> nth_error p2 y = Some v ->
    (exists s, nth_error A x = Some s /\ nth_error B y = Some s) /\ In (S y, S x) (met (walk M ms)).
  Proof.
    intros x y v H1 H2. assert (L : y < length p2) by (apply nth_error_Some; congruence). rewrite (os_len _ _ _ _ _ _ _ _ OS) in L.
    destruct (nth_error_lt_ex ts2 y L) as [t Ht]. destruct (os_aligned _ _ _ _ _ _ _ _ OS y v t H2 Ht (ta_in _ _ H1)) as [Q1 Q2].
    rewrite (ta_rank _ _ H1) in Q1. split; [|assumption]. destruct (ta_on _ _ Q2) as [i [t' [X [Y Z]]]]. assert (i = x) by (apply (p1_inj i x v); assumption). subst i.
    exists (tk_str t). unfold A, B. split; [rewrite (map_nth_error _ _ _ Y); congruence|apply map_nth_error; assumption].
  Qed.

  (** A match is a pair of equal readings. *)
  Lemma ta_match : forall y x, M y x = true -> exists y' x' s, y = S y' /\ x = S x' /\ nth_error A x' = Some s /\ nth_error B y' = Some s.
  Proof.
    intros y x H. destruct (os_sound _ _ _ _ _ _ _ _ OS y x H) as [t [v [Y [Ht [Hv [Hr Ho]]]]]]. destruct (ta_on _ _ Ho) as [i [t' [X1 [X2 X3]]]].
    exists (y - 1), i, (tk_str t). split; [lia|]. split; [rewrite <- Hr; apply ta_rank; assumption|]. unfold A, B.
    split; [rewrite (map_nth_error _ _ _ X2); congruence|apply map_nth_error; assumption].
  Qed.
  Lemma ta_complete : filt = None -> forall y x s, nth_error A x = Some s -> nth_error B y = Some s -> M (S y) (S x) = true.
  Proof.
    intros F y x s H1 H2. apply nth_map in H1 as [t1 [H1 E1]]. apply nth_map in H2 as [t2 [H2 E2]].
    assert (L : x < length p1) by (rewrite LP1; apply nth_error_Some; congruence). destruct (nth_error_lt_ex p1 x L) as [v Hv].
    apply (os_complete _ _ _ _ _ _ _ _ OS F (S y) (S x) t2 v); [lia|replace (S y - 1) with y by lia; assumption|apply (ta_in x); assumption|apply ta_rank; assumption|].
    exists (sg, steps ts1 p1), t1. split; [left; reflexivity|]. cbn [snd]. split; [|congruence].
    unfold steps. apply nth_error_In with (n := x). clear - H1 Hv. revert p1 ts1 H1 Hv. induction x as [|x IH]; intros [|u p] [|a ts] H1 Hv; try discriminate; cbn in *.
    - congruence.
    - apply IH; assumption.
  Qed.

  Hypothesis ND2 : NoDup p2.
  Variable P : list (nat * nat).
  Hypothesis ST : StronglySorted up P.
  Hypothesis SH : forall x y, In (x, y) P <-> exists v, nth_error p1 x = Some v /\ nth_error p2 y = Some v.

  Theorem ta_agreeing : agreeing A B P.
  Proof. split; [exact ST|]. intros i j H. apply SH in H as [v [H1 H2]]. apply (ta_agree i j v H1 H2). Qed.

  Lemma ta_pairs : walk M ms = plain_walk M ms -> map back (met (plain_walk M ms)) = P.
  Proof.
    intros EQ. destruct (walk_layout M ms) as [S1 [_ [S2 _]]]. apply sorted_members; [assumption|assumption|]. intros [x y]. rewrite SH. split.
      - intros Q. apply in_map_iff in Q as [[y0 x0] [E Q]]. unfold back in E. cbn [fst snd] in E. injection E as <- <-.
        destruct (S2 _ Q) as [G1 [G2 _]]. cbn [fst snd] in G1, G2. rewrite <- EQ in Q.
        destruct (os_met _ _ _ _ _ _ _ _ OS _ _ Q) as [y' [v [t [t' [B1 [B2 [B3 [B4 [B5 _]]]]]]]]].
        rewrite EQ in Q, B2. rewrite <- (plain_met_inj M ms _ _ _ Q B2) in B3. exists v. split; [|assumption].
        pose proof (proj1 (proj1 (proj2 ta_single) v) B4) as Hv. destruct Hv as [Hv|Hv].
        + exfalso. subst v. pose proof (single_rank g0 p1 rk ta_single LG 0 v_start eq_refl) as R0. lia.
        + apply in_app_or in Hv as [Hv|[Hv|[]]].
          * apply In_nth_error in Hv as [i Hv]. pose proof (ta_rank _ _ Hv) as R. replace (x0 - 1) with i by lia. assumption.
          * exfalso. subst v. assert (In v_end (vertices g0)) by apply (end_In g0 _ GI0).
            destruct (plain_met_mono M ms) as [PM _]. apply PM in Q as [_ Q]. rewrite <- EQ, (os_rank _ _ _ _ _ _ _ _ OS) in Q. lia.
      - intros [v [H1 H2]]. destruct (ta_agree x y v H1 H2) as [_ Q]. rewrite EQ in Q. apply in_map_iff. exists (S y, S x). split; [unfold back; cbn [fst snd]; f_equal; lia|assumption].
  Qed.

  (** The pairs are those of the textbook recursion. *)
  Lemma ta_same : filt = None -> forall y x, M y x = same_word A B y x.
  Proof.
    intros F y x. destruct (M y x) eqn:E.
    - destruct (ta_match y x E) as [y' [x' [s [-> [-> [H1 H2]]]]]]. unfold same_word. rewrite H1, H2. symmetry. apply str_eqb_ok. reflexivity.
    - destruct (same_word A B y x) eqn:E2; [|reflexivity]. unfold same_word in E2. destruct y as [|y]; [discriminate|]. destruct x as [|x]; [discriminate|].
      destruct (nth_error B y) as [s|] eqn:H2; [|discriminate]. destruct (nth_error A x) as [s'|] eqn:H1; [|discriminate]. apply str_eqb_ok in E2. subst s'.
      rewrite (ta_complete F y x s H1 H2) in E. discriminate.
  Qed.
  Theorem ta_chosen : filt = None -> P = chosen_pairs A B.
  Proof.
    intros F. assert (LA : length A = length p1) by (unfold A; rewrite map_length; congruence). assert (LB : length B = length ts2) by apply map_length.
    pose proof (walk_ext _ _ (ta_same F)) as EX. pose proof (ta_end) as TE.
    assert (EM : snd (best_way (same_word A B) (length B) (length A)) = ms).
    { destruct (best_way_good (same_word A B) (length B) (length A)) as [E1 [E2 [E3 E4]]].
      assert (EE : ends (same_word A B) ms (length B) (length A)).
      { split; rewrite <- EX; [rewrite (os_token _ _ _ _ _ _ _ _ OS); congruence|rewrite (os_rank _ _ _ _ _ _ _ _ OS); lia]. }
      apply (one_way (same_word A B) _ _ (length B) (length A)); auto.
      - intros ms' y x Q Q'. rewrite <- !EX. destruct EE as [G1 G2], Q as [Q1 Q2], Q' as [Q3 Q4]. apply (os_best _ _ _ _ _ _ _ _ OS); rewrite EX; lia.
      - intros before m after E m' SO other R T. rewrite <- !EX in *. exact (os_first _ _ _ _ _ _ _ _ OS before m after E m' SO other R T). }
    unfold chosen_pairs. rewrite EM, <- EX. set (l := met (walk M ms)). destruct (walk_met M ms) as [SO MT]. fold l in SO, MT.
    assert (POS : forall p, In p l -> 1 <= fst p /\ 1 <= snd p).
    { intros p Hp. apply MT in Hp as [Hp _]. destruct (ta_match _ _ Hp) as [y' [x' [s [-> [-> _]]]]]. lia. }
    assert (LAST : forall p, In p (filter (fun p => negb (existsb (fun q => (snd q =? snd p) && (fst p <? fst q)) l)) l) <->
      In p l /\ forall q, In q l -> snd q = snd p -> fst q <= fst p).
    { intros p. rewrite filter_In, negb_true_iff. split; intros [H1 H2]; (split; [exact H1|]).
      - intros q Hq E. destruct (le_lt_dec (fst q) (fst p)) as [G|G]; [exact G|]. exfalso. assert (Z : existsb (fun q => (snd q =? snd p) && (fst p <? fst q)) l = true); [|congruence].
        apply existsb_exists. exists q. split; [exact Hq|]. apply andb_true_iff. split; [apply Nat.eqb_eq; exact E|apply Nat.ltb_lt; exact G].
      - apply not_true_iff_false. intros Z. apply existsb_exists in Z as [q [Hq Z]]. apply andb_true_iff in Z as [Z1 Z2]. apply Nat.eqb_eq in Z1. apply Nat.ltb_lt in Z2.
        specialize (H2 q Hq Z1). lia. }
    apply sorted_members; [exact ST| |].
    - set (f := fun p => negb _) in *.
      assert (G : forall k, (forall p, In p k -> In p l) -> StronglySorted (fun p q : nat * nat => fst p < fst q /\ snd p <= snd q) k -> StronglySorted up (map (fun p => (snd p - 1, fst p - 1)) (filter f k))).
      { induction k as [|p k IH]; intros IN SK; [constructor|]. inversion SK as [|? ? S1 S2]; subst. rewrite Forall_forall in S2. cbn [filter]. 
        destruct (f p) eqn:FP; [|apply IH; auto; intros; apply IN; right; assumption]. cbn [map]. constructor; [apply IH; auto; intros; apply IN; right; assumption|].
        apply Forall_forall. intros q Hq. apply in_map_iff in Hq as [q0 [<- Hq]]. apply filter_In in Hq as [Hq _]. destruct (S2 q0 Hq) as [U1 U2].
        assert (Lp : In p l) by (apply IN; left; reflexivity). assert (Lq : In q0 l) by (apply IN; right; assumption). destruct (POS p Lp), (POS q0 Lq).
        assert (snd p <> snd q0).
        { intros E. destruct (proj1 (LAST p)) as [_ Z]; [apply filter_In; auto|]. specialize (Z q0 Lq (eq_sym E)). lia. }
        unfold up. cbn [fst snd]. lia. }
      apply G; auto.
    - intros [x y]. rewrite SH, in_map_iff. split.
      + intros [v [H1 H2]]. destruct (ta_agree x y v H1 H2) as [_ Q]. exists (S y, S x). cbn [fst snd]. split; [f_equal; lia|]. apply LAST. split; [exact Q|].
        intros [y2 x2] Hq E. cbn [fst snd] in *. subst x2. destruct (os_met _ _ _ _ _ _ _ _ OS _ _ Hq) as [y' [v' [t [t' [B1 [B2 [B3 [B4 [B5 _]]]]]]]]].
        assert (v' = v).
        { pose proof (proj1 (proj1 (proj2 ta_single) v') B4) as Hv. destruct Hv as [Hv|Hv].
          - exfalso. subst v'. pose proof (single_rank g0 p1 rk ta_single LG 0 v_start eq_refl) as R0. lia.
          - apply in_app_or in Hv as [Hv|[Hv|[]]].
            + apply In_nth_error in Hv as [i Hv]. pose proof (ta_rank _ _ Hv) as R. assert (i = x) by lia. subst i. congruence.
            + exfalso. subst v'. assert (x < length p1) by (apply nth_error_Some; congruence). lia. }
        subst v'. assert (y' - 1 = y); [|lia].
        destruct (le_lt_dec (length p2) y) as [?|LY]; [exfalso; assert (y < length p2) by (apply nth_error_Some; congruence); lia|].
        exact (nth_unique p2 _ _ v ND2 B3 H2).
      + intros [[y0 x0] [E Q]]. cbn [fst snd] in E. injection E as <- <-. apply LAST in Q as [Q LQ]. destruct (POS _ Q) as [G1 G2]. cbn [fst snd] in *.
        destruct (os_met _ _ _ _ _ _ _ _ OS _ _ Q) as [y' [v [t [t' [B1 [B2 [B3 [B4 [B5 _]]]]]]]]].
        specialize (LQ _ B2 eq_refl). cbn [fst] in LQ. assert (y' = y0) by lia. subst y'. exists v. split; [|assumption].
        pose proof (proj1 (proj1 (proj2 ta_single) v) B4) as Hv. destruct Hv as [Hv|Hv].
        * exfalso. subst v. pose proof (single_rank g0 p1 rk ta_single LG 0 v_start eq_refl) as R0. lia.
        * apply in_app_or in Hv as [Hv|[Hv|[]]].
          -- apply In_nth_error in Hv as [i Hv]. pose proof (ta_rank _ _ Hv) as R. replace (x0 - 1) with i by lia. assumption.
          -- exfalso. subst v. apply MT in Q as [_ [_ Q]]. cbn [snd] in Q. rewrite (os_rank _ _ _ _ _ _ _ _ OS) in Q. lia.
  Qed.

  Theorem ta_optimal : filt = None -> no_doublets B -> forall P', agreeing A B P' ->
    (balance (length A) (length B) P' <= balance (length A) (length B) P)%Z.
  Proof.
    intros F ND P' [ST' AG'].
    assert (LA : length A = length p1) by (unfold A; rewrite map_length; congruence). assert (LB : length B = length ts2) by apply map_length.
    assert (EQ : forall ms, walk M ms = plain_walk M ms).
    { apply walk_plain. intros y x E. destruct (M (S y) x) eqn:E2; [|reflexivity]. exfalso.
      destruct (ta_match _ _ E) as [y1 [x1 [s1 [-> [-> [Q1 Q2]]]]]]. destruct (ta_match _ _ E2) as [y2 [x2 [s2 [Y2 [X2 [Q3 Q4]]]]]].
      injection Y2 as <-. injection X2 as <-. rewrite Q1 in Q3. injection Q3 as <-. apply (ND y1 s1 Q2 Q4). }
    pose proof (ta_pairs (EQ ms)) as MP.
    destruct (walk_layout M ms) as [_ [_ [_ LL]]]. rewrite MP in LL.
    assert (R1 : at_rank (plain_walk M ms) = length A) by (rewrite <- EQ, (os_rank _ _ _ _ _ _ _ _ OS), ta_end; lia).
    assert (T1 : at_token (plain_walk M ms) = length B) by (rewrite <- EQ, (os_token _ _ _ _ _ _ _ _ OS); congruence).
    rewrite R1, T1 in LL.
    destruct (layout_walk M P' (length A) (length B) ST') as [ms' [L' [R' [T' F']]]].
    { intros x y Q. destruct (AG' x y Q) as [s [Q1 Q2]]. split; [apply nth_error_Some; congruence|]. split; [apply nth_error_Some; congruence|]. apply (ta_complete F y x s); assumption. }
    pose proof (os_best _ _ _ _ _ _ _ _ OS ms') as BEST. rewrite !EQ, R', T', ta_end in BEST. specialize (BEST ltac:(lia) LB).
    rewrite !plain_points in BEST. unfold balance. rewrite <- L'. assert (LM : length (met (plain_walk M ms)) = length P) by (rewrite <- MP, map_length; reflexivity). lia.
  Qed.
  Theorem ta_omissions : filt = None -> subsequence B A -> length P = length B /\ length (layout 0 0 (length A) (length B) P) = length A.
  Proof.
    intros F SUB. destruct (sub_agreeing B A SUB) as [P' [[ST' AG'] [LP' LL']]].
    assert (LA : length A = length p1) by (unfold A; rewrite map_length; congruence). assert (LB : length B = length ts2) by apply map_length.
    destruct (layout_walk M P' (length A) (length B) ST') as [ms' [L' [R' [T' F']]]].
    { intros x y Q. destruct (AG' x y Q) as [s [Q1 Q2]]. split; [apply nth_error_Some; congruence|]. split; [apply nth_error_Some; congruence|]. apply (ta_complete F y x s); assumption. }
    destruct (walk_above M ms') as [W1 [W2 W3]]. pose proof (os_best _ _ _ _ _ _ _ _ OS ms') as BEST. rewrite W1, W2, R', T', ta_end in BEST. specialize (BEST ltac:(lia) LB).
    rewrite plain_points in W3. destruct (walk_adds M ms) as [D1 [D2 D3]].
    rewrite (os_rank _ _ _ _ _ _ _ _ OS), ta_end in D1. rewrite (os_token _ _ _ _ _ _ _ _ OS) in D2.
    assert (EQ : walk M ms = plain_walk M ms) by (apply walk_no_adds; lia).
    pose proof (ta_pairs EQ) as MP. destruct (walk_layout M ms) as [_ [_ [_ LL]]]. rewrite MP in LL.
    assert (R1 : at_rank (plain_walk M ms) = length A) by (rewrite <- EQ, (os_rank _ _ _ _ _ _ _ _ OS), ta_end; lia).
    assert (T1 : at_token (plain_walk M ms) = length B) by (rewrite <- EQ, (os_token _ _ _ _ _ _ _ _ OS); congruence).
    rewrite R1, T1 in LL. assert (LM : length (met (walk M ms)) = length P) by (rewrite EQ, <- MP, map_length; reflexivity).
    destruct (agreeing_columns A B P ta_agreeing) as [N1 _]. pose proof (filter_le (fun c => is_some (fst c)) (layout 0 0 (length A) (length B) P)). lia.
  Qed.
End TwoAlign.

Lemma two_collate : forall topo filt w1 w2 b ti g, topo_ok topo -> good_sigla [w1; w2] -> aligner_collate topo filt b [w1; w2] = Ok (ti, g) ->
  exists ts1 ts2 p1 p2, graph_of g [(w_sigil w1, steps ts1 p1); (w_sigil w2, steps ts2 p2)] /\
    length p1 = length ts1 /\ length p2 = length ts2 /\
    Forall2 (came_from (w_sigil w1)) (w_toks w1) ts1 /\ Forall2 (came_from (w_sigil w2)) (w_toks w2) ts2 /\
    forall P, StronglySorted up P -> (forall x y, In (x, y) P <-> exists v, nth_error p1 x = Some v /\ nth_error p2 y = Some v) ->
      agreeing (readings w1) (readings w2) P /\
      (filt = None -> no_doublets (readings w2) -> forall P', agreeing (readings w1) (readings w2) P' ->
        (balance (length (w_toks w1)) (length (w_toks w2)) P' <= balance (length (w_toks w1)) (length (w_toks w2)) P)%Z) /\
      (filt = None -> subsequence (readings w2) (readings w1) ->
        length P = length (w_toks w2) /\ length (layout 0 0 (length (w_toks w1)) (length (w_toks w2)) P) = length (w_toks w1)) /\
      (filt = None -> P = chosen_pairs (readings w1) (readings w2)).
Proof.
  intros topo filt w1 w2 b ti g TO [ND NE] H.
  assert (H0 : aligner_collate topo filt false [w1; w2] = Ok (ti, g)).
  { destruct b; [|assumption]. unfold aligner_collate in *. apply bind_ok in H as [ti' [P H]]. apply bind_ok in H as [st [A H]].
    rewrite P. cbn [bind]. rewrite (align_all_detect _ _ _ _ A). exact H. }
  clear H. apply stage_last in H0. cbn [length] in H0. unfold stage in H0. apply bind_ok in H0 as [ti' [P H]]. clear ti. rename ti' into ti.
  pose proof (prepare_index_ok _ ti ND P) as IX. pose proof (prepare_text_ok _ ti P) as TX.
  pose proof (ix_wits _ _ IX) as WT. cbn [stamped] in WT. rewrite WT in H.
  set (iw1 := {| iw_sigil := w_sigil w1; iw_toks := _ |}) in *. set (iw2 := {| iw_sigil := w_sigil w2; iw_toks := _ |}) in *.
  apply bind_ok in H as [st0 [F H]]. apply bind_ok in H as [st' [A H]]. injection H as <-.
  destruct (first_step_inv _ ti filt IX NE iw1 [iw2] WT) as [st1 [p [F1 F2]]]. rewrite F1 in F. injection F as <-.
  assert (PL : exists p0, length p0 = length (iw_toks iw1) /\ steps (iw_toks iw1) p = steps (iw_toks iw1) p0).
  { pose proof (al_paths _ _ _ _ _ F2) as FP. inversion FP as [|? ? ? ? [_ [p0 [L0 E0]]] _]; subst. cbn [snd] in E0. eauto. }
  destruct PL as [p0 [L0 E0]]. rewrite E0 in F2. cbn [firstn foldM] in A. apply bind_ok in A as [st2 [A A']]. cbn [firstn foldM] in A'. apply ok_inj in A'. subst st2.
  assert (N0 : [(iw_sigil iw1, steps (iw_toks iw1) p0)] <> []) by discriminate.
  destruct (step_optimal _ ti filt IX TX NE topo TO [iw1] iw2 [] st1 _ st' WT N0 F2 A) as [rk [mm [l [path [M [ms [RO [AL' OS]]]]]]]].
  pose proof (al_graph _ _ _ _ _ F2) as GI0. pose proof (al_graph _ _ _ _ _ AL') as GI. cbn [app] in GI.
  pose proof (longest _ _ rk mm l GI0 RO N0) as LG.
  exists (iw_toks iw1), (iw_toks iw2), p0, path. split; [exact GI|]. split; [assumption|]. split; [apply (os_len _ _ _ _ _ _ _ _ OS)|].
  assert (C1 : Forall2 (came_from (w_sigil w1)) (w_toks w1) (iw_toks iw1)) by (apply stamp_came_from).
  assert (C2 : Forall2 (came_from (w_sigil w2)) (w_toks w2) (iw_toks iw2)) by (apply stamp_came_from).
  split; [assumption|]. split; [assumption|]. intros Q ST SH.
  pose proof (came_readings _ _ _ C1) as R1. pose proof (came_readings _ _ _ C2) as R2. unfold readings. rewrite <- R1, <- R2.
  split; [apply (ta_agreeing _ _ _ _ _ _ _ _ _ _ L0 GI0 LG OS Q ST SH)|].
  split; [|split].
  - intros FN NDB P' AG. pose proof (ta_optimal _ _ _ _ _ _ _ _ _ _ L0 GI0 LG OS Q ST SH FN NDB P' AG) as O.
    rewrite !R1, !R2, !map_length in O. exact O.
  - intros FN SUB. pose proof (ta_omissions _ _ _ _ _ _ _ _ _ _ L0 GI0 LG OS Q ST SH FN SUB) as O.
    rewrite !R1, !R2, !map_length in O. exact O.
  - intros FN. refine (ta_chosen _ _ _ _ _ _ _ _ _ _ L0 GI0 LG OS _ Q ST SH FN).
    assert (NC : NoDup (chain (iw_sigil iw2, steps (iw_toks iw2) path))) by (apply (gi_simple _ _ GI); right; left; reflexivity).
    unfold chain in NC. cbn [snd] in NC. rewrite (steps_fst _ _ (os_len _ _ _ _ _ _ _ _ OS)) in NC. inversion NC as [|? ? _ NC']; subst. apply NoDup_app_iff in NC'. apply NC'.
Qed.

(** ** The collation of two witnesses *)
Section TwoTable.
  Variables (cc : cclass) (topo : graph -> res (list vid)) (ratio : str -> str -> Q).
  Hypothesis TO : topo_ok topo.

  Lemma shows_cell : forall w ts p x c, length p = length ts -> Forall2 (came_from (w_sigil w)) (w_toks w) ts ->
    cell_is (w_sigil w, steps ts p) x c -> shows w x c.
  Proof.
    intros w ts p x c L C H. unfold cell_is, shows in *. destruct x as [x|]; [|rewrite H; exact I]. destruct H as [v [l [H ->]]]. cbn [snd] in H.
    assert (E : exists t, nth_error ts x = Some t /\ l = [t]).
    { clear C. revert p ts L H. unfold steps. induction x as [|x IH]; intros [|u p] [|t ts] L H; try discriminate; cbn in *.
      - injection H as <- <-. eauto.
      - apply (IH p ts); [lia|assumption]. }
    destruct E as [t [E ->]]. destruct (Forall2_nth_ex_r _ _ _ _ _ C E) as [t0 [T1 T2]]. eauto 6.
  Qed.

  Theorem two_witnesses : forall w1 w2 o t, good_sigla [w1; w2] -> o_segmentation o = false -> o_near o = false ->
    collate cc topo ratio [w1; w2] o = Ok (OTable t) ->
    exists P, agreeing (readings w1) (readings w2) P /\
      (let C := layout 0 0 (length (w_toks w1)) (length (w_toks w2)) P in
       (exists c1 c2, t_rows t = [{| r_header := w_sigil w1; r_cells := c1 |}; {| r_header := w_sigil w2; r_cells := c2 |}] /\
         Forall2 (shows w1) (map fst C) c1 /\ Forall2 (shows w2) (map snd C) c2) /\
       Forall2 (fun c col => c_variant col = false <-> exists x y, c = (Some x, Some y) /\ In (x, y) P) C (t_columns t)) /\
      table_score t = balance (length (w_toks w1)) (length (w_toks w2)) P /\
      (o_filter o = None -> no_doublets (readings w2) -> forall P', agreeing (readings w1) (readings w2) P' ->
        (balance (length (w_toks w1)) (length (w_toks w2)) P' <= table_score t)%Z) /\
      (o_filter o = None -> subsequence (readings w2) (readings w1) ->
        length P = length (w_toks w2) /\ length (layout 0 0 (length (w_toks w1)) (length (w_toks w2)) P) = length (w_toks w1)) /\
      (o_filter o = None -> P = chosen_pairs (readings w1) (readings w2)).
  Proof.
    intros w1 w2 o t G Hs Hn H. destruct (collate_table_inv cc topo ratio _ o t H) as [g [r [H1 H2]]].
    unfold collate_graph in H1. apply bind_ok in H1 as [[ti g1] [HA H1]]. destruct (o_astar o); [discriminate|].
    rewrite Hn, Hs in H1. apply bind_ok in H1 as [r1 [HR H1]]. cbn [bind] in H1. apply ok_inj in H1. injection H1 as <- <-.
    destruct (two_collate topo (o_filter o) w1 w2 _ ti g1 TO G HA) as [ts1 [ts2 [p1 [p2 [GI [L1 [L2 [C1 [C2 ALG]]]]]]]]].
    destruct (ranking_spec topo g1 _ TO GI) as [rk [m [l [_ [R RO]]]]]. rewrite R in HR. apply ok_inj in HR. subst r1.
    rewrite (table_spec g1 _ rk m l GI RO) in H2. apply ok_inj in H2. cbn [map] in H2.
    destruct (two_table g1 _ _ rk m l GI RO) as [P [ST [SH [[c1 [c2 [TR [F1 F2]]]] FV]]]]. cbn [fst snd] in *.
    assert (S1 : length (steps ts1 p1) = length (w_toks w1)).
    { unfold steps. rewrite combine_length, map_length. apply Forall2_len in C1. lia. }
    assert (S2 : length (steps ts2 p2) = length (w_toks w2)).
    { unfold steps. rewrite combine_length, map_length. apply Forall2_len in C2. lia. }
    rewrite S1, S2 in *. rewrite (steps_fst ts1 p1 L1), (steps_fst ts2 p2 L2) in SH.
    destruct (ALG P ST SH) as [AG [OPT OMI]]. subst t.
    pose proof (score_balance P _ _ _ ST FV) as SB.
    exists P. split; [assumption|]. split.
    - cbv zeta. split; [|exact FV]. exists c1, c2. split; [exact TR|]. split.
      + eapply Forall2_impl; [|exact F1]. intros x c. apply shows_cell; assumption.
      + eapply Forall2_impl; [|exact F2]. intros x c. apply shows_cell; assumption.
    - split; [exact SB|]. split; [|exact OMI]. intros Hf ND P' A'. etransitivity; [apply (OPT Hf ND P' A')|]. apply Z.eq_le_incl. symmetry. exact SB.
  Qed.

  Theorem two_symmetric : forall w1 w2 o t t', good_sigla [w1; w2] -> o_segmentation o = false -> o_near o = false -> o_filter o = None ->
    no_doublets (readings w1) -> no_doublets (readings w2) ->
    collate cc topo ratio [w1; w2] o = Ok (OTable t) -> collate cc topo ratio [w2; w1] o = Ok (OTable t') -> table_score t = table_score t'.
  Proof.
    intros w1 w2 o t t' G Hs Hn Hf N1 N2 H H'.
    assert (G' : good_sigla [w2; w1]).
    { destruct G as [A B]. split; [|cbn in *; tauto]. cbn [map] in *. inversion A as [|? ? A1 A2]; subst. constructor; [|constructor; [intros []|constructor]].
      intros [E|[]]. apply A1. left. congruence. }
    destruct (two_witnesses w1 w2 o t G Hs Hn H) as [P [AG [_ [SB [OPT _]]]]].
    destruct (two_witnesses w2 w1 o t' G' Hs Hn H') as [P' [AG' [_ [SB' [OPT' _]]]]].
    pose proof (OPT Hf N2 (map flip P') (agreeing_flip _ _ _ AG')) as Q1. pose proof (OPT' Hf N1 (map flip P) (agreeing_flip _ _ _ AG)) as Q2.
    rewrite balance_flip in Q1, Q2. lia.
  Qed.
End TwoTable.

(** ** Omissions in the table *)
Lemma best_omissions : forall a b P, agreeing a b P -> length P = length b -> length (layout 0 0 (length a) (length b) P) = length a ->
  forall c, In c (layout 0 0 (length a) (length b) P) -> is_some (fst c) = true /\ is_some (snd c) = paired P c.
Proof.
  intros a b P AG E2 E1. destruct (agreeing_columns a b P AG) as [N1 [N2 N3]]. set (C := layout 0 0 (length a) (length b) P) in *.
  intros c Hc. split.
  - apply (filter_full (fun c => is_some (fst c)) C); [lia|assumption].
  - apply (filter_same (paired P) (fun c => is_some (snd c)) C); [|lia|assumption]. intros c' Q'. apply paired_some in Q'. tauto.
Qed.
Lemma best_sub : forall a b P, agreeing a b P -> subsequence b a ->
  (forall P', agreeing a b P' -> (balance (length a) (length b) P' <= balance (length a) (length b) P)%Z) ->
  length P = length b /\ length (layout 0 0 (length a) (length b) P) = length a.
Proof.
  intros a b P AG SUB BEST. destruct (sub_agreeing b a SUB) as [P' [AG' [LP' LL']]]. pose proof (BEST P' AG') as Q. unfold balance in Q.
  destruct (agreeing_columns a b P AG) as [N1 [N2 N3]]. set (C := layout 0 0 (length a) (length b) P) in *.
  pose proof (filter_le (fun c => is_some (fst c)) C) as L1.
  assert (L2 : length P <= length b).
  { rewrite <- N3, <- N2. clear. induction C as [|c C IH]; [reflexivity|]. cbn [filter]. destruct (paired P c) eqn:E; [apply paired_some in E as [_ E]; rewrite E; cbn [length]; lia|].
    destruct (is_some (snd c)); cbn [length]; lia. }
  lia.
Qed.

Lemma Forall2_at : forall {A B} (R : A -> B -> Prop) l1 l2 k b, Forall2 R l1 l2 -> nth_error l2 k = Some b -> exists a, nth_error l1 k = Some a /\ R a b.
Proof. induction l1 as [|a l1 IH]; intros l2 k b F H; inversion F; subst; [destruct k; discriminate|]. destruct k as [|k]; cbn in *; [injection H as <-; eauto|eauto]. Qed.
Lemma Forall2_at_l : forall {A B} (R : A -> B -> Prop) l1 l2 k a, Forall2 R l1 l2 -> nth_error l1 k = Some a -> exists b, nth_error l2 k = Some b /\ R a b.
Proof. induction l1 as [|a l1 IH]; intros l2 k b F H; inversion F; subst; [destruct k; discriminate|]. destruct k as [|k]; cbn in *; [injection H as <-; eauto|eauto]. Qed.

Section Omissions.
  Variables (cc : cclass) (topo : graph -> res (list vid)) (ratio : str -> str -> Q).
  Hypothesis TO : topo_ok topo.

  Lemma shown : forall w x c, shows w (Some x) c -> exists ts t0, c = Some ts /\ nth_error (w_toks w) x = Some t0 /\ map tk_str ts = [t0_str t0].
  Proof. intros w x c H. destruct c as [ts|]; [|destruct H]. destruct H as [t0 [t [A [-> [B _]]]]]. exists [t], t0. cbn [map]. rewrite B. auto. Qed.

  Theorem two_omissions : forall w1 w2 o t, good_sigla [w1; w2] -> o_segmentation o = false -> o_near o = false -> o_filter o = None ->
    collate cc topo ratio [w1; w2] o = Ok (OTable t) ->
    exists r1 r2, t_rows t = [r1; r2] /\ r_header r1 = w_sigil w1 /\ r_header r2 = w_sigil w2 /\
      (subsequence (readings w2) (readings w1) -> length (t_columns t) = length (w_toks w1) /\ only_omissions t r1 r2) /\
      (subsequence (readings w1) (readings w2) -> no_doublets (readings w2) -> length (t_columns t) = length (w_toks w2) /\ only_omissions t r2 r1).
  Proof.
    intros w1 w2 o t G Hs Hn Hf H. destruct (two_witnesses cc topo ratio TO w1 w2 o t G Hs Hn H) as [P [AG [[[c1 [c2 [TR [F1 F2]]]] FV] [SB [OPT [OMI _]]]]]].
    specialize (OPT Hf). specialize (OMI Hf). rewrite SB in OPT.
    assert (LR1 : length (readings w1) = length (w_toks w1)) by apply map_length. assert (LR2 : length (readings w2) = length (w_toks w2)) by apply map_length.
    exists {| r_header := w_sigil w1; r_cells := c1 |}, {| r_header := w_sigil w2; r_cells := c2 |}. split; [assumption|]. split; [reflexivity|]. split; [reflexivity|].
    set (C := layout 0 0 (length (w_toks w1)) (length (w_toks w2)) P) in *.
    assert (AT : forall k col, nth_error (t_columns t) k = Some col -> exists c u1 u2, nth_error C k = Some c /\ nth_error c1 k = Some u1 /\ nth_error c2 k = Some u2 /\
      shows w1 (fst c) u1 /\ shows w2 (snd c) u2 /\ c_variant col = negb (paired P c)).
    { intros k col Q. destruct (Forall2_at _ _ _ _ _ FV Q) as [c [Q1 Q2]]. exists c.
      destruct (Forall2_at_l _ _ _ k (fst c) F1) as [u1 [U1 U2]]; [apply map_nth_error; assumption|]. destruct (Forall2_at_l _ _ _ k (snd c) F2) as [u2 [U3 U4]]; [apply map_nth_error; assumption|].
      exists u1, u2. split; [assumption|]. split; [assumption|]. split; [assumption|]. split; [assumption|]. split; [assumption|].
      rewrite <- paired_iff in Q2. destruct (c_variant col), (paired P c); cbn [negb]; intuition congruence. }
    assert (EQ : forall x y t1 t2, In (x, y) P -> nth_error (w_toks w1) x = Some t1 -> nth_error (w_toks w2) y = Some t2 -> t0_str t1 = t0_str t2).
    { intros x y t1 t2 Q Q1 Q2. destruct AG as [_ AG]. destruct (AG x y Q) as [s [A B]]. unfold readings in A, B.
      rewrite (map_nth_error _ _ _ Q1) in A. rewrite (map_nth_error _ _ _ Q2) in B. congruence. }
    pose proof (Forall2_len _ _ _ FV) as LC. split; [intros SUB|intros SUB ND; specialize (OPT ND)].
    - destruct (OMI SUB) as [BP BL]. fold C in BL. assert (BC := best_omissions _ _ P AG ltac:(lia) ltac:(rewrite LR1, LR2; exact BL)). rewrite LR1, LR2 in BC. fold C in BC. split; [lia|].
      intros k col Q. destruct (AT k col Q) as [c [u1 [u2 [Q1 [Q2 [Q3 [Q4 [Q5 Q6]]]]]]]]. cbn [r_cells]. rewrite Q2, Q3.
      destruct (BC c) as [B1 B2]; [apply nth_error_In in Q1; assumption|]. destruct c as [[x|] oy]; [|discriminate]. cbn [fst snd] in *.
      destruct (shown w1 x u1 Q4) as [ts [t0 [-> [T1 T2]]]]. exists ts. split; [reflexivity|]. rewrite Q6. destruct (paired P (Some x, oy)) eqn:PP; cbn [negb].
      + destruct oy as [y|]; [|discriminate]. destruct (shown w2 y u2 Q5) as [ts' [t0' [-> [T3 T4]]]]. exists ts'. split; [reflexivity|].
        apply paired_iff in PP as [x' [y' [E PP]]]. injection E as <- <-. rewrite T2, T4, (EQ x y t0 t0' PP T1 T3). reflexivity.
      + destruct oy as [y|]; [discriminate|]. destruct u2; [destruct Q5|reflexivity].
    - assert (BEST' : forall P', agreeing (readings w2) (readings w1) P' -> (balance (length (w_toks w2)) (length (w_toks w1)) P' <= balance (length (w_toks w2)) (length (w_toks w1)) (map flip P))%Z).
      { intros P' AG'. rewrite balance_flip. apply agreeing_flip in AG'. apply OPT in AG'. rewrite balance_flip in AG'. assumption. }
      destruct (best_sub _ _ (map flip P) (agreeing_flip _ _ _ AG) SUB) as [BP BL]; [rewrite LR1, LR2; assumption|]. pose proof (best_omissions _ _ _ (agreeing_flip _ _ _ AG) BP BL) as BC. rewrite LR1, LR2 in BL, BC. rewrite layout_flip in BL, BC. fold C in BL, BC. rewrite map_length in BL. split; [lia|].
      intros k col Q. destruct (AT k col Q) as [c [u1 [u2 [Q1 [Q2 [Q3 [Q4 [Q5 Q6]]]]]]]]. cbn [r_cells]. rewrite Q2, Q3.
      destruct (BC (flip c)) as [B1 B2]; [apply in_map; apply nth_error_In in Q1; assumption|].
      assert (PF : paired (map flip P) (flip c) = paired P c).
      { apply eq_true_iff_eq. rewrite !paired_iff. split; intros [x [y [E Q']]]; exists y, x.
        - destruct c as [ox oy]. unfold flip in E. cbn [fst snd] in E. injection E as -> ->. split; [reflexivity|]. apply in_map_iff in Q' as [[a b] [E Q']]. unfold flip in E. cbn in E. injection E as <- <-. assumption.
        - subst c. split; [reflexivity|]. apply in_map_iff. exists (x, y). split; [reflexivity|assumption]. }
      rewrite PF in B2. destruct c as [ox [y|]]; [|discriminate]. cbn [fst snd flip] in *.
      destruct (shown w2 y u2 Q5) as [ts [t0 [-> [T1 T2]]]]. exists ts. split; [reflexivity|]. rewrite Q6. destruct (paired P (ox, Some y)) eqn:PP; cbn [negb].
      + destruct ox as [x|]; [|discriminate]. destruct (shown w1 x u1 Q4) as [ts' [t0' [-> [T3 T4]]]]. exists ts'. split; [reflexivity|].
        apply paired_iff in PP as [x' [y' [E PP]]]. injection E as <- <-. rewrite T2, T4, (EQ x y t0' t0 PP T3 T1). reflexivity.
      + destruct ox as [x|]; [discriminate|]. destruct u1; [destruct Q4|reflexivity].
  Qed.
End Omissions.
