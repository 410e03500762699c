(** Proofs about _radixPass: it is a stable counting sort. *)
From Verif Require Import Py Lib SuffixModel.

(** ** Order of suffixes of a sequence given as a function *)
Definition slt (f : nat -> nat) (i j : nat) : Prop :=
  exists k, (forall l, l < k -> f (i + l) = f (j + l)) /\ f (i + k) < f (j + k).

Lemma slt_irrefl : forall f i, ~ slt f i i.
Proof. intros f i [k [_ H]]. lia. Qed.

Lemma slt_trans : forall f i j h, slt f i j -> slt f j h -> slt f i h.
Proof.
  intros f i j h [k1 [A1 A2]] [k2 [B1 B2]].
  destruct (lt_eq_lt_dec k1 k2) as [[H|H]|H].
  - exists k1. split; [intros l Hl; rewrite A1, B1 by lia; reflexivity|]. rewrite <- (B1 k1) by lia. assumption.
  - subst. exists k2. split; [intros l Hl; rewrite A1, B1 by lia; reflexivity|]. lia.
  - exists k2. split; [intros l Hl; rewrite A1, B1 by lia; reflexivity|]. rewrite (A1 k2) by lia. assumption.
Qed.

Lemma slt_asym : forall f i j, slt f i j -> slt f j i -> False.
Proof. intros. apply (slt_irrefl f i). eapply slt_trans; eauto. Qed.

Lemma slt_lt : forall f i j, f i < f j -> slt f i j.
Proof. intros. exists 0. split; [lia|]. rewrite !Nat.add_0_r. assumption. Qed.

Lemma slt_eq : forall f i j, f i = f j -> slt f (S i) (S j) -> slt f i j.
Proof.
  intros f i j E [k [A B]]. exists (S k). split.
  - intros l Hl. destruct l; [rewrite !Nat.add_0_r; assumption|].
    replace (i + S l) with (S i + l) by lia. replace (j + S l) with (S j + l) by lia. apply A. lia.
  - replace (i + S k) with (S i + k) by lia. replace (j + S k) with (S j + k) by lia. assumption.
Qed.

Lemma slt_inv : forall f i j, slt f i j -> f i < f j \/ f i = f j /\ slt f (S i) (S j).
Proof.
  intros f i j [k [A B]]. destruct k.
  - rewrite !Nat.add_0_r in B. auto.
  - right. split.
    + specialize (A 0). rewrite !Nat.add_0_r in A. apply A. lia.
    + exists k. split.
      * intros l Hl. specialize (A (S l)). replace (S i + l) with (i + S l) by lia.
        replace (S j + l) with (j + S l) by lia. apply A. lia.
      * replace (S i + k) with (i + S k) by lia. replace (S j + k) with (j + S k) by lia. assumption.
Qed.

(** Sequences of positive values followed by zeros. *)
Definition bounded_seq (f : nat -> nat) (n : nat) : Prop :=
  (forall i, i < n -> 0 < f i) /\ (forall i, n <= i -> f i = 0).

Lemma first_diff : forall (f : nat -> nat) i j k, f (i + k) <> f (j + k) ->
  exists k', (forall l, l < k' -> f (i + l) = f (j + l)) /\ f (i + k') <> f (j + k').
Proof.
  intros f i j k. induction k as [k IH] using lt_wf_ind. intros H.
  assert (D : (forall l, l < k -> f (i + l) = f (j + l)) \/ exists l, l < k /\ f (i + l) <> f (j + l)).
  { clear. induction k; [left; intros; lia|]. destruct IHk as [A|[l [L1 L2]]].
    - destruct (Nat.eq_dec (f (i + k)) (f (j + k))).
      + left. intros l Hl. destruct (Nat.eq_dec l k); [subst; assumption|]. apply A. lia.
      + right. exists k. split; [lia|assumption].
    - right. exists l. split; [lia|assumption]. }
  destruct D as [A|[l [L1 L2]]]; [eauto|]. apply (IH l); assumption.
Qed.

Lemma slt_total : forall f n i j, bounded_seq f n -> i <= n -> j <= n -> i <> j -> slt f i j \/ slt f j i.
Proof.
  assert (G : forall f n i j, bounded_seq f n -> i < j -> j <= n -> slt f i j \/ slt f j i).
  { intros f n i j [B1 B2] Hij Hj.
    destruct (first_diff f i j (n - j)) as [k [K1 K2]].
    - rewrite (B2 (j + (n - j))) by lia. specialize (B1 (i + (n - j))). lia.
    - destruct (lt_dec (f (i + k)) (f (j + k))).
      + left. exists k. auto.
      + right. exists k. split; [intros; symmetry; apply K1; assumption|lia]. }
  intros f n i j B Hi Hj N. destruct (lt_dec i j).
  - apply (G f n); auto.
  - destruct (G f n j i); auto. lia.
Qed.

(** ** Arrays as lists with default 0 *)
Lemma nth_upd : forall (l : list nat) i j x, i < length l -> nth j (upd l i x) 0 = if i =? j then x else nth j l 0.
Proof.
  intros l i j x H. pose proof (nth_error_upd l i j x) as E.
  apply Nat.ltb_lt in H. rewrite H in E.
  destruct (i =? j) eqn:D.
  - erewrite nth_error_nth; [reflexivity|eassumption].
  - destruct (nth_error l j) eqn:F.
    + erewrite nth_error_nth; [|eassumption]. symmetry. erewrite nth_error_nth; [reflexivity|eassumption].
    + rewrite !nth_overflow; auto; apply nth_error_None; [assumption|]. rewrite E. reflexivity.
Qed.

Lemma aget_nth : forall (l : list nat) i, i < length l -> aget l i = Ok (nth i l 0).
Proof. intros. unfold aget. rewrite (nth_error_nth' l 0 H). reflexivity. Qed.

Lemma foldM_seq_aget : forall {B} (F : B -> nat -> res B) (a : list nat) m s b,
  s + m <= length a ->
  foldM (fun b i => x <- aget a i ;; F b x) (seq s m) b = foldM F (firstn m (skipn s a)) b.
Proof.
  induction m; intros s b H; [reflexivity|]. simpl seq.
  assert (E : exists x, nth_error a s = Some x) by (apply nth_error_lt_ex; lia). destruct E as [x E].
  rewrite (skipn_nth_error a s x E). simpl. unfold aget at 1. rewrite E. simpl.
  destruct (F b x); simpl; auto. apply IHm. lia.
Qed.

(** ** Concatenation of buckets *)
Section Buckets.
  Variable F : nat -> list nat.
  Fixpoint base (k : nat) : nat := match k with 0 => 0 | S k' => base k' + length (F k') end.

  Lemma base_mono : forall k k', k <= k' -> base k <= base k'.
  Proof. intros k k' H. induction H; [lia|]. simpl. lia. Qed.

  Lemma buckets_length : forall m, length (flat_map F (seq 0 m)) = base m.
  Proof.
    induction m; [reflexivity|]. rewrite seq_S, flat_map_app, app_length, IHm. simpl.
    rewrite app_nil_r. reflexivity.
  Qed.

  Lemma buckets_nth : forall m k j, k < m -> j < length (F k) ->
    nth (base k + j) (flat_map F (seq 0 m)) 0 = nth j (F k) 0.
  Proof.
    induction m; intros k j Hk Hj; [lia|]. rewrite seq_S, flat_map_app. simpl. rewrite app_nil_r.
    destruct (Nat.eq_dec k m).
    - subst. rewrite app_nth2; rewrite buckets_length; [|lia]. f_equal. lia.
    - rewrite app_nth1; [apply IHm; lia|]. rewrite buckets_length.
      pose proof (base_mono (S k) m). simpl in H. lia.
  Qed.

  Lemma buckets_find : forall m p, p < base m -> exists k j, k < m /\ j < length (F k) /\ p = base k + j.
  Proof.
    induction m; intros p H; simpl in H; [lia|]. destruct (lt_dec p (base m)).
    - destruct (IHm p) as [k [j [H1 [H2 H3]]]]; auto. exists k, j. auto.
    - exists m, (p - base m). lia.
  Qed.
End Buckets.

Definition bucket (key : nat -> nat) (l : list nat) (k : nat) : list nat := filter (fun x => key x =? k) l.
Definition keyed_sort (key : nat -> nat) (K : nat) (l : list nat) : list nat :=
  flat_map (bucket key l) (seq 0 (K + 1)).

Lemma bucket_app : forall key l1 l2 k, bucket key (l1 ++ l2) k = bucket key l1 k ++ bucket key l2 k.
Proof. intros. apply filter_app. Qed.

Lemma base_total : forall key l m, (forall x, In x l -> key x < m) -> base (bucket key l) m = length l.
Proof.
  intros key l m. induction l as [|a l IH]; intros H.
  - clear. induction m; simpl; auto. rewrite IHm. reflexivity.
  - assert (G : forall m', base (bucket key (a :: l)) m' = base (bucket key l) m' + (if key a <? m' then 1 else 0)).
    { clear. induction m'; [reflexivity|].
      change (base (bucket key (a :: l)) (S m')) with (base (bucket key (a :: l)) m' + length (bucket key (a :: l) m')).
      change (base (bucket key l) (S m')) with (base (bucket key l) m' + length (bucket key l m')).
      rewrite IHm'.
      assert (Q : length (bucket key (a :: l) m') = (if key a =? m' then 1 else 0) + length (bucket key l m'))
        by (unfold bucket; simpl; destruct (key a =? m'); reflexivity).
      rewrite Q. clear Q. destruct (key a =? m') eqn:E.
      - apply Nat.eqb_eq in E. rewrite E. rewrite Nat.ltb_irrefl.
        assert (m' <? S m' = true) by (apply Nat.ltb_lt; lia). rewrite H. simpl. lia.
      - apply Nat.eqb_neq in E. destruct (key a <? m') eqn:E1.
        + apply Nat.ltb_lt in E1. assert (key a <? S m' = true) by (apply Nat.ltb_lt; lia). rewrite H. lia.
        + apply Nat.ltb_ge in E1. assert (key a <? S m' = false) by (apply Nat.ltb_ge; lia). rewrite H. lia. }
    rewrite G, IH by (intros; apply H; right; assumption).
    assert (key a <? m = true) by (apply Nat.ltb_lt; apply H; left; reflexivity). rewrite H0. simpl. lia.
Qed.

Lemma keyed_sort_length : forall key K l, (forall x, In x l -> key x <= K) -> length (keyed_sort key K l) = length l.
Proof.
  intros. unfold keyed_sort. rewrite buckets_length. apply base_total. intros x Hx. apply H in Hx. lia.
Qed.

Lemma nth_repeat0 : forall n i, nth i (repeat 0 n) 0 = 0.
Proof. induction n; destruct i; simpl; auto. Qed.

Theorem radixPass_spec : forall a b r n K, n <= length a -> n <= length b ->
  (forall x, In x (firstn n a) -> x < length r /\ nth x r 0 <= K) ->
  radixPass a b r n K = Ok (keyed_sort (fun x => nth x r 0) K (firstn n a) ++ skipn n b).
Proof.
  intros a b r n K La Lb HK. set (l := firstn n a) in *. set (key := fun x => nth x r 0).
  assert (Ll : length l = n) by (unfold l; rewrite firstn_length; lia).
  remember (base (bucket key l)) as B eqn:EB.
  assert (BT : B (K + 1) = n).
  { rewrite EB. rewrite base_total; auto. intros x Hx. apply HK in Hx. unfold key. lia. }
  unfold radixPass.
  (* counting *)
  assert (E1 : exists c, radix_count a r n (repeat 0 (K + 1)) = Ok c /\ length c = K + 1 /\
               forall k, nth k c 0 = length (bucket key l k)).
  { unfold radix_count.
    pose proof (foldM_seq_aget (fun c ai => ri <- aget r ai ;; ci <- aget c ri ;; aset c ri (ci + 1)) a n 0 (repeat 0 (K + 1))) as FS.
    simpl in FS. rewrite FS by lia. fold l.
    destruct (foldM_inv (fun c ai => ri <- aget r ai ;; ci <- aget c ri ;; aset c ri (ci + 1))
      (fun pre c => length c = K + 1 /\ forall k, nth k c 0 = length (bucket key pre k)) l (repeat 0 (K + 1)))
      as [c [C1 [C2 C3]]].
    - split; [apply repeat_length|]. intros k. apply nth_repeat0.
    - intros pre x c [post Ep] [I1 I2].
      destruct (HK x) as [X1 X2]; [rewrite Ep; apply in_or_app; right; left; reflexivity|].
      rewrite (aget_nth r x X1). simpl. rewrite aget_nth by lia. simpl. rewrite aset_ok by lia.
      eexists. split; [reflexivity|]. split; [rewrite upd_length; assumption|].
      intros k. rewrite nth_upd by lia. rewrite bucket_app, app_length. unfold bucket at 2. simpl. fold (key x).
      destruct (key x =? k) eqn:E; simpl.
      + apply Nat.eqb_eq in E. rewrite I2. subst k. lia.
      + rewrite I2. lia.
    - exists c. auto. }
  destruct E1 as [c [E1 [Lc Cc]]]. rewrite E1. simpl.
  assert (BS : forall k, B (S k) = B k + length (bucket key l k)) by (intros; rewrite EB; reflexivity).
  assert (BM : forall k k', k <= k' -> B k <= B k') by (intros; rewrite EB; apply base_mono; assumption).
  (* prefix sums *)
  assert (E2 : exists c' s, radix_prefix K c = Ok (c', s) /\ length c' = K + 1 /\ forall k, k < K + 1 -> nth k c' 0 = B k).
  { unfold radix_prefix.
    destruct (foldM_inv (fun '(c0, sum) i => t <- aget c0 i ;; c' <- aset c0 i sum ;; Ok (c', sum + t))
      (fun pre st => length (fst st) = K + 1 /\ snd st = B (length pre) /\
         (forall k, k < length pre -> nth k (fst st) 0 = B k) /\
         (forall k, length pre <= k -> nth k (fst st) 0 = length (bucket key l k)))
      (seq 0 (K + 1)) (c, 0)) as [[c' s] [C1 [C2 [C3 [C4 C5]]]]].
    - simpl. repeat split; auto; try (intros; lia). subst B. reflexivity.
    - intros pre x [c0 sum] [post Ep] [I1 [I2 [I3 I4]]]. simpl in *.
      assert (x = length pre).
      { assert (nth (length pre) (seq 0 (K + 1)) 0 = x) by (rewrite Ep, app_nth2, Nat.sub_diag by lia; reflexivity).
        assert (length pre < K + 1).
        { pose proof (seq_length (K + 1) 0). rewrite Ep, app_length in H0. simpl in H0. lia. }
        rewrite seq_nth in H by lia. lia. }
      assert (length pre < K + 1).
      { pose proof (seq_length (K + 1) 0). rewrite Ep, app_length in H0. simpl in H0. lia. }
      subst x. rewrite aget_nth by lia. simpl. rewrite aset_ok by lia. simpl.
      eexists. split; [reflexivity|]. simpl. rewrite app_length. simpl. rewrite upd_length.
      split; [assumption|]. split; [|split].
      + replace (length pre + 1) with (S (length pre)) by lia. rewrite I2, I4, BS by lia. reflexivity.
      + intros k Hk. rewrite nth_upd by lia. destruct (length pre =? k) eqn:E.
        * apply Nat.eqb_eq in E. subst k. assumption.
        * apply Nat.eqb_neq in E. apply I3. lia.
      + intros k Hk. rewrite nth_upd by lia. destruct (length pre =? k) eqn:E.
        * apply Nat.eqb_eq in E. lia.
        * apply I4. lia.
    - simpl in *. rewrite seq_length in *. exists c', s. auto. }
  destruct E2 as [c' [s [E2 [Lc' Cc']]]]. rewrite E2. simpl.
  (* placing *)
  unfold radix_place. fold l.
  destruct (foldM_inv (fun '(b0, c0) ai => ri <- aget r ai ;; ci <- aget c0 ri ;;
           b' <- aset b0 ci ai ;; c'0 <- aset c0 ri (ci + 1) ;; Ok (b', c'0))
    (fun pre st => length (fst st) = length b /\ length (snd st) = K + 1 /\
       (forall k, k < K + 1 -> nth k (snd st) 0 = B k + length (bucket key pre k)) /\
       (forall k j, k < K + 1 -> j < length (bucket key pre k) -> nth (B k + j) (fst st) 0 = nth j (bucket key pre k) 0) /\
       (forall p, n <= p -> nth p (fst st) 0 = nth p b 0))
    l (b, c')) as [[b' c''] [P1 [P2 [P3 [P4 [P5 P6]]]]]].
  - simpl. repeat split; auto.
    + intros k Hk. rewrite Cc' by assumption. lia.
    + intros. lia.
  - intros pre x [b0 c0] [post Ep] [I1 [I2 [I3 [I4 I5]]]]. simpl in *.
    destruct (HK x) as [X1 X2]; [rewrite Ep; apply in_or_app; right; left; reflexivity|].
    rewrite (aget_nth r x X1). simpl. fold (key x). fold (key x) in X2.
    rewrite aget_nth by lia. simpl.
    set (ci := nth (key x) c0 0).
    assert (Eci : ci = B (key x) + length (bucket key pre (key x))) by (unfold ci; apply I3; lia).
    assert (SL : forall k, length (bucket key pre k) + (if key x =? k then 1 else 0) <= length (bucket key l k)).
    { intros k. rewrite Ep. rewrite bucket_app, app_length. unfold bucket at 3. simpl.
      destruct (key x =? k); simpl; lia. }
    assert (Hci : ci < B (S (key x))).
    { rewrite BS. pose proof (SL (key x)). rewrite Nat.eqb_refl in H. lia. }
    assert (Hcn : ci < n). { pose proof (BM (S (key x)) (K + 1)). lia. }
    rewrite aset_ok by lia. simpl. rewrite aset_ok by lia. simpl.
    eexists. split; [reflexivity|]. simpl. rewrite !upd_length.
    split; [assumption|]. split; [assumption|]. split; [|split].
    + intros k Hk. rewrite nth_upd by lia. rewrite bucket_app, app_length. unfold bucket at 2. simpl.
      destruct (key x =? k) eqn:E; simpl.
      * apply Nat.eqb_eq in E. subst k. lia.
      * rewrite I3 by assumption. lia.
    + intros k j Hk Hj. rewrite nth_upd by lia. rewrite bucket_app in *. rewrite app_length in Hj.
      unfold bucket at 2 in Hj. unfold bucket at 2. simpl in *.
      destruct (key x =? k) eqn:E; simpl in *.
      * apply Nat.eqb_eq in E. subst k. destruct (ci =? B (key x) + j) eqn:D1.
        -- apply Nat.eqb_eq in D1. assert (j = length (bucket key pre (key x))) by lia. subst j.
           rewrite app_nth2, Nat.sub_diag by lia. reflexivity.
        -- apply Nat.eqb_neq in D1. rewrite app_nth1 by lia. apply I4; lia.
      * rewrite app_nil_r. destruct (ci =? B k + j) eqn:D1; [|apply I4; lia].
        apply Nat.eqb_eq in D1. apply Nat.eqb_neq in E. exfalso.
        pose proof (SL k). destruct (key x =? k); 
        (destruct (lt_dec (key x) k); [pose proof (BM (S (key x)) k); lia|]; pose proof (BM (S k) (key x)); rewrite BS in *; lia).
    + intros p Hp. rewrite nth_upd by lia. destruct (ci =? p) eqn:E; [apply Nat.eqb_eq in E; lia|]. apply I5. assumption.
  - simpl in *. rewrite P1. simpl. f_equal. subst B.
    assert (LK : length (keyed_sort key K l) = n).
    { unfold keyed_sort. rewrite buckets_length. exact BT. }
    apply nth_ext with 0 0.
    + rewrite app_length, skipn_length, LK. lia.
    + intros p Hp. destruct (lt_dec p n) as [H|H].
      * rewrite app_nth1 by lia. rewrite <- BT in H. destruct (buckets_find _ _ _ H) as [k [j [K1 [K2 ->]]]].
        unfold keyed_sort. rewrite buckets_nth by assumption. apply P5; assumption.
      * rewrite app_nth2 by lia. rewrite P6 by lia. rewrite LK.
        rewrite <- (firstn_skipn n b) at 1. rewrite app_nth2; rewrite firstn_length; [|lia].
        f_equal. lia.
Qed.

(** ** keyed_sort sorts stably *)
Lemma keyed_sort_perm : forall key K l, (forall x, In x l -> key x <= K) -> Permutation (keyed_sort key K l) l.
Proof.
  intros key K l. induction l as [|a l IH]; intros H.
  - unfold keyed_sort. clear. induction (seq 0 (K + 1)); simpl; auto.
  - assert (Ha : key a < K + 1) by (pose proof (H a (or_introl eq_refl)); lia).
    rewrite <- (IH) at 2 by (intros; apply H; right; assumption).
    unfold keyed_sort. replace (K + 1) with (key a + S (K - key a)) by lia.
    rewrite seq_app, !flat_map_app. simpl.
    unfold bucket at 2. simpl. rewrite Nat.eqb_refl.
    assert (E1 : flat_map (bucket key (a :: l)) (seq 0 (key a)) = flat_map (bucket key l) (seq 0 (key a))).
    { apply flat_map_ext_In. intros k Hk. apply in_seq in Hk. unfold bucket. simpl.
      assert (key a =? k = false) by (apply Nat.eqb_neq; lia). rewrite H0. reflexivity. }
    assert (E2 : flat_map (bucket key (a :: l)) (seq (S (key a)) (K - key a)) = flat_map (bucket key l) (seq (S (key a)) (K - key a))).
    { apply flat_map_ext_In. intros k Hk. apply in_seq in Hk. unfold bucket. simpl.
      assert (key a =? k = false) by (apply Nat.eqb_neq; lia). rewrite H0. reflexivity. }
    rewrite E1, E2. simpl. symmetry. apply Permutation_middle.
Qed.

Lemma StronglySorted_app : forall {A} (R : A -> A -> Prop) l1 l2,
  StronglySorted R (l1 ++ l2) <-> StronglySorted R l1 /\ StronglySorted R l2 /\ (forall a b, In a l1 -> In b l2 -> R a b).
Proof.
  induction l1 as [|x l1 IH]; intros l2; simpl.
  - split; [intros H; split; [constructor|split; [assumption|intros a b []]] | tauto].
  - split.
    + intros H. inversion H as [|? ? S1 S2]; subst. apply IH in S1 as [S3 [S4 S5]].
      rewrite Forall_forall in S2. split; [|split; [assumption|]].
      * constructor; auto. rewrite Forall_forall. intros y Hy. apply S2. apply in_or_app. auto.
      * intros a b [<-|Ha] Hb; auto. apply S2. apply in_or_app. auto.
    + intros [S1 [S2 S3]]. inversion S1 as [|? ? S4 S5]; subst. rewrite Forall_forall in S5. constructor.
      * apply IH. split; [assumption|split; [assumption|]]. intros a b Ha Hb. apply S3; auto.
      * rewrite Forall_forall. intros y Hy. apply in_app_or in Hy as [Hy|Hy]; auto.
Qed.

Lemma StronglySorted_filter : forall {A} (R : A -> A -> Prop) f l, StronglySorted R l -> StronglySorted R (filter f l).
Proof.
  induction 1; simpl; [constructor|]. destruct (f a); auto. constructor; auto.
  rewrite Forall_forall in *. intros x Hx. apply filter_In in Hx as [Hx _]. auto.
Qed.

Lemma StronglySorted_impl : forall {A} (R S : A -> A -> Prop) l,
  (forall a b, In a l -> In b l -> R a b -> S a b) -> StronglySorted R l -> StronglySorted S l.
Proof.
  induction l as [|x l IH]; intros H H1; [constructor|]. inversion H1 as [|? ? S1 S2]; subst. constructor.
  - apply IH; auto. intros. apply H; simpl; auto.
  - rewrite Forall_forall in *. intros y Hy. apply H; simpl; auto.
Qed.

Lemma keyed_sort_sorted : forall key K l (R : nat -> nat -> Prop), StronglySorted R l ->
  StronglySorted (fun a b => key a < key b \/ key a = key b /\ R a b) (keyed_sort key K l).
Proof.
  intros key K l R S. unfold keyed_sort.
  assert (G : forall m s, StronglySorted (fun a b => key a < key b \/ key a = key b /\ R a b) (flat_map (bucket key l) (seq s m)) ).
  { induction m; intros s; simpl; [constructor|]. apply StronglySorted_app. split; [|split; [apply IHm|]].
    - apply StronglySorted_impl with (R := R).
      + intros a b Ha Hb Rab. apply filter_In in Ha as [_ Ha]. apply filter_In in Hb as [_ Hb].
        apply Nat.eqb_eq in Ha, Hb. right. split; [lia|assumption].
      + apply StronglySorted_filter. assumption.
    - intros a b Ha Hb. apply filter_In in Ha as [_ Ha]. apply Nat.eqb_eq in Ha.
      apply in_flat_map in Hb as [k [Hk Hb]]. apply in_seq in Hk. apply filter_In in Hb as [_ Hb].
      apply Nat.eqb_eq in Hb. left. lia. }
  apply G.
Qed.
