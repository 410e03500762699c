(** Proofs about split_lcp_array_into_intervals: blocks are exactly the intervals of
    the LCP array with a positive minimum. *)
From Verif Require Import Py Lib TokenModel SuffixModel IndexModel.

(** [k] is the minimum of the LCP values at a+1 .. c. *)
Definition is_min (lcps : list nat) (a c k : nat) : Prop :=
  (forall i, a < i <= c -> k <= nth i lcps 0) /\ exists i, a < i <= c /\ nth i lcps 0 = k.

Lemma is_min_ex : forall lcps a c, a < c -> exists k, is_min lcps a c k.
Proof.
  intros lcps a c H. remember (c - a - 1) as d eqn:E. revert c H E. induction d; intros c H E.
  - assert (c = S a) by lia. subst. exists (nth (S a) lcps 0). split.
    + intros i Hi. assert (i = S a) by lia. subst. lia.
    + exists (S a). split; [lia|reflexivity].
  - destruct (IHd (c - 1)) as [k [K1 [i [K2 K3]]]]; try lia.
    destruct (le_lt_dec k (nth c lcps 0)).
    + exists k. split; [|exists i; split; [lia|assumption]].
      intros j Hj. destruct (Nat.eq_dec j c); [subst; assumption|]. apply K1. lia.
    + exists (nth c lcps 0). split; [|exists c; split; [lia|reflexivity]].
      intros j Hj. destruct (Nat.eq_dec j c); [subst; lia|]. specialize (K1 j). lia.
Qed.

Definition open_ok (lcps : list nat) (idx : nat) (o : nat * nat) : Prop :=
  let '(st, len) := o in
  0 < len /\ st + 1 < idx /\ is_min lcps st (idx - 1) len.

Definition closed_ok (lcps : list nat) (idx : nat) (b : block) : Prop :=
  0 < b_len b /\ b_start b < b_end b /\ b_end b + 1 <= idx /\
  is_min lcps (b_start b) (b_end b) (b_len b) /\
  nth (b_end b + 1) lcps 0 < b_len b.

Definition covered (lcps : list nat) (idx : nat) (open : list (nat * nat)) (closed : list block) : Prop :=
  forall a c k, a < c -> c < idx -> 0 < k -> is_min lcps a c k ->
    (exists b, In b closed /\ b_start b <= a /\ c <= b_end b /\ b_len b = k) \/
    (exists st, In (st, k) open /\ st <= a).

(** top of the stack first: starts strictly decrease, lengths never increase. *)
Definition stack_ok (open : list (nat * nat)) : Prop :=
  StronglySorted (fun o1 o2 => fst o2 < fst o1 /\ snd o2 <= snd o1) open.

Definition top_len (open : list (nat * nat)) : nat := match open with [] => 0 | (_, l) :: _ => l end.

Record split_inv (lcps : list nat) (idx : nat) (st : nat * list (nat * nat) * list block) : Prop := {
  sp_prev : fst (fst st) = nth (idx - 1) lcps 0;
  sp_top : fst (fst st) = top_len (snd (fst st));
  sp_stack : stack_ok (snd (fst st));
  sp_open : forall o, In o (snd (fst st)) -> open_ok lcps idx o;
  sp_closed : forall b, In b (snd st) -> closed_ok lcps idx b /\ b_end b + 1 < idx;
  sp_cov : covered lcps idx (snd (fst st)) (snd st);
  sp_last : forall a k, a + 1 < idx -> 0 < k -> is_min lcps a (idx - 1) k ->
              exists s, In (s, k) (snd (fst st)) /\ s <= a
}.

(** what closing does *)
Lemma close_spec : forall idx lcp open closed, stack_ok open ->
  exists popped rest, open = popped ++ rest /\
    close_intervals idx lcp open closed =
      (rest, closed ++ map (fun o => {| b_start := fst o; b_end := idx - 1; b_len := snd o |}) popped) /\
    (forall o, In o popped -> lcp < snd o) /\ (forall o, In o rest -> snd o <= lcp).
Proof.
  induction open as [|[st len] open IH]; intros closed S.
  - exists [], []. simpl. rewrite app_nil_r. repeat split; auto; intros o [].
  - inversion S as [|? ? S1 S2]; subst. simpl. destruct (lcp <? len) eqn:E.
    + apply Nat.ltb_lt in E. destruct (IH (closed ++ [{| b_start := st; b_end := idx - 1; b_len := len |}]) S1)
        as [popped [rest [E1 [E2 [E3 E4]]]]].
      exists ((st, len) :: popped), rest. simpl. split; [congruence|]. split; [|split].
      * rewrite E2, <- app_assoc. reflexivity.
      * intros o [<-|H]; auto.
      * assumption.
    + apply Nat.ltb_ge in E. exists [], ((st, len) :: open). simpl. rewrite app_nil_r.
      repeat split; auto; [intros o []|]. intros o [<-|H]; [assumption|].
      rewrite Forall_forall in S2. apply S2 in H. simpl in H. lia.
Qed.

Lemma is_min_unique : forall lcps a c k k', is_min lcps a c k -> is_min lcps a c k' -> k = k'.
Proof.
  intros lcps a c k k' [H1 [i [H2 H3]]] [H4 [j [H5 H6]]].
  specialize (H1 j H5). specialize (H4 i H2). lia.
Qed.

Lemma is_min_extend : forall lcps a c k, a < c -> is_min lcps a c k ->
  is_min lcps a (c + 1) (Nat.min k (nth (c + 1) lcps 0)).
Proof.
  intros lcps a c k H [H1 [i [H2 H3]]]. split.
  - intros j Hj. destruct (Nat.eq_dec j (c + 1)); [subst; lia|]. specialize (H1 j). lia.
  - destruct (Nat.min_dec k (nth (c + 1) lcps 0)) as [E|E]; rewrite E.
    + exists i. split; [lia|assumption].
    + exists (c + 1). split; [lia|reflexivity].
Qed.

Lemma is_min_single : forall lcps a, is_min lcps a (a + 1) (nth (a + 1) lcps 0).
Proof.
  intros. split; [|exists (a + 1); split; [lia|reflexivity]].
  intros i Hi. assert (i = a + 1) by lia. subst. lia.
Qed.

Lemma split_step_inv : forall lcps idx st, nth 0 lcps 0 = 0 -> 0 < idx -> idx < length lcps ->
  split_inv lcps idx st ->
  exists st', split_step st (idx, nth idx lcps 0) = Ok st' /\ split_inv lcps (idx + 1) st'.
Proof.
  intros lcps idx [[prev open] closed] Z P L [I1 I2 I3 I4 I5 I6 I7]. simpl in *.
  set (v := nth idx lcps 0) in *.
  assert (LE : forall a k, a + 1 < idx -> is_min lcps a (idx - 1) k -> k <= prev).
  { intros a k Ha [K1 _]. rewrite I1. apply K1. lia. }
  assert (EXT : forall a k, a + 1 < idx -> is_min lcps a (idx - 1) k -> is_min lcps a idx (Nat.min k v)).
  { intros a k Ha K. apply is_min_extend in K; [|lia]. replace (idx - 1 + 1) with idx in K by lia. assumption. }
  assert (SGL : is_min lcps (idx - 1) idx v).
  { pose proof (is_min_single lcps (idx - 1)) as K. replace (idx - 1 + 1) with idx in K by lia. assumption. }
  destruct (prev <? v) eqn:E1.
  - (* a longer prefix starts *)
    apply Nat.ltb_lt in E1. eexists. split; [reflexivity|]. constructor; simpl.
    + replace (idx + 1 - 1) with idx by lia. reflexivity.
    + reflexivity.
    + constructor; auto. rewrite Forall_forall. intros [s l] Ho. simpl.
      destruct (I4 _ Ho) as [O1 [O2 O3]]. split; [lia|].
      destruct O3 as [O3 _]. specialize (O3 (idx - 1)). lia.
    + intros o [<-|Ho].
      * split; [lia|]. split; [lia|]. replace (idx + 1 - 1) with idx by lia. assumption.
      * destruct o as [s l]. destruct (I4 _ Ho) as [O1 [O2 O3]]. split; [lia|]. split; [lia|].
        replace (idx + 1 - 1) with idx by lia.
        replace l with (Nat.min l v); [apply EXT; auto; lia|]. apply LE in O3; lia.
    + intros b Hb. destruct (I5 b Hb) as [[B1 [B2 [B3 [B4 B5]]]] B6]. split; [|lia].
      repeat split; auto; try lia; apply B4.
    + intros a c k Ha Hc Hk K. destruct (Nat.eq_dec c idx).
      * subst c. right. destruct (Nat.eq_dec a (idx - 1)).
        -- subst a. rewrite (is_min_unique _ _ _ _ _ K SGL). exists (idx - 1). split; [left; reflexivity|lia].
        -- destruct (is_min_ex lcps a (idx - 1)) as [k0 K0]; [lia|].
           pose proof (EXT a k0 ltac:(lia) K0) as K1. pose proof (is_min_unique _ _ _ _ _ K K1) as Ek.
           pose proof (LE a k0 ltac:(lia) K0). assert (k = k0) by lia. subst k0.
           destruct (I7 a k) as [s [S1 S2]]; auto; try lia. exists s. split; [right; assumption|assumption].
      * destruct (I6 a c k) as [C|[s [S1 S2]]]; auto; try lia. right. exists s. split; [right|]; assumption.
    + intros a k Ha Hk K. replace (idx + 1 - 1) with idx in K by lia. destruct (Nat.eq_dec a (idx - 1)).
      * subst a. rewrite (is_min_unique _ _ _ _ _ K SGL). exists (idx - 1). split; [left; reflexivity|lia].
      * destruct (is_min_ex lcps a (idx - 1)) as [k0 K0]; [lia|].
        pose proof (EXT a k0 ltac:(lia) K0) as K1. pose proof (is_min_unique _ _ _ _ _ K K1) as Ek.
        pose proof (LE a k0 ltac:(lia) K0). assert (k = k0) by lia. subst k0.
        destruct (I7 a k) as [s [S1 S2]]; auto; try lia. exists s. split; [right; assumption|assumption].
  - apply Nat.ltb_ge in E1. destruct (v <? prev) eqn:E2.
    + (* intervals are closed *)
      apply Nat.ltb_lt in E2.
      destruct (close_spec idx v open closed I3) as [popped [rest [Eo [Ec [Pp Pr]]]]].
      rewrite Ec.
      set (closed' := closed ++ map (fun o => {| b_start := fst o; b_end := idx - 1; b_len := snd o |}) popped).
      assert (Np : popped <> []).
      { intros ->. simpl in Eo. subst rest. destruct open as [|[s l] open']; simpl in I2.
        - lia.
        - specialize (Pr (s, l) (or_introl eq_refl)). simpl in Pr. lia. }
      destruct (exists_last Np) as [popped' [[sl ll] Ep]].
      assert (Er : rev closed' = {| b_start := sl; b_end := idx - 1; b_len := ll |} ::
                   rev (closed ++ map (fun o => {| b_start := fst o; b_end := idx - 1; b_len := snd o |}) popped')).
      { unfold closed'. rewrite Ep, map_app, app_assoc, rev_app_distr. reflexivity. }
      rewrite Er. cbn [b_start].
      (* order facts *)
      assert (SO : forall o, In o popped -> sl <= fst o).
      { intros o Ho. rewrite Ep in Ho. apply in_app_or in Ho as [Ho|[<-|[]]]; [|simpl; lia].
        rewrite Eo, Ep in I3. rewrite <- app_assoc in I3. clear - I3 Ho.
        induction popped' as [|x p IH]; [contradiction|]. inversion I3 as [|? ? S1 S2]; subst.
        destruct Ho as [->|Ho]; [|apply IH; assumption]. rewrite Forall_forall in S2.
        specialize (S2 (sl, ll)). simpl in S2. assert (sl < fst o); [|lia].
        apply S2. apply in_or_app. right. left. reflexivity. }
      assert (SR : stack_ok rest).
      { rewrite Eo in I3. clear - I3. induction popped as [|x p IH]; auto. inversion I3; subst. auto. }
      assert (SL : forall o, In o rest -> fst o < sl).
      { intros o Ho. rewrite Eo, Ep in I3. rewrite <- app_assoc in I3. clear - I3 Ho.
        induction popped' as [|x p IH].
        - simpl in I3. inversion I3 as [|? ? S1 S2]; subst. rewrite Forall_forall in S2. apply S2 in Ho. simpl in Ho. lia.
        - inversion I3; subst. auto. }
      assert (InP : In (sl, ll) popped) by (rewrite Ep; apply in_or_app; right; left; reflexivity).
      assert (Osl : open_ok lcps idx (sl, ll)) by (apply I4; rewrite Eo; apply in_or_app; auto).
      destruct Osl as [L1 [L2 L3]].
      assert (Msl : is_min lcps sl idx v).
      { replace v with (Nat.min ll v); [apply EXT; auto|]. specialize (Pp _ InP). simpl in Pp. lia. }
      (* statement for the two shapes of the new stack *)
      assert (Hrest : forall o, In o rest -> open_ok lcps (idx + 1) o).
      { intros [s l] Ho. assert (Oo : open_ok lcps idx (s, l)) by (apply I4; rewrite Eo; apply in_or_app; auto).
        destruct Oo as [O1 [O2 O3]]. split; [lia|]. split; [lia|]. replace (idx + 1 - 1) with idx by lia.
        replace l with (Nat.min l v); [apply EXT; auto|]. specialize (Pr _ Ho). simpl in Pr. lia. }
      assert (Hclosed : forall b, In b closed' -> closed_ok lcps (idx + 1) b /\ b_end b + 1 < idx + 1).
      { intros b Hb. unfold closed' in Hb. apply in_app_or in Hb as [Hb|Hb].
        - destruct (I5 b Hb) as [[B1 [B2 [B3 [B4 B5]]]] B6]. split; [|lia]. repeat split; auto; try lia; apply B4.
        - apply in_map_iff in Hb as [[s l] [<- Ho]]. simpl.
          assert (Oo : open_ok lcps idx (s, l)) by (apply I4; rewrite Eo; apply in_or_app; auto).
          destruct Oo as [O1 [O2 O3]]. unfold closed_ok. simpl. split; [|lia].
          split; [lia|]. split; [lia|]. split; [lia|]. split; [assumption|].
          replace (idx - 1 + 1) with idx by lia. specialize (Pp _ Ho). simpl in Pp. assumption. }
      (* where an interval of the previous state went *)
      assert (MOVE : forall s k, In (s, k) open -> (In (s, k) rest /\ k <= v) \/
         (In {| b_start := s; b_end := idx - 1; b_len := k |} closed' /\ sl <= s /\ v < k)).
      { intros s k Ho. rewrite Eo in Ho. apply in_app_or in Ho as [Ho|Ho].
        - right. split; [|split; [apply (SO (s, k)); assumption | apply (Pp (s, k)); assumption]].
          unfold closed'. apply in_or_app. right. apply in_map_iff. exists (s, k). auto.
        - left. split; auto. apply (Pr (s, k)). assumption. }
      assert (LASTC : forall (new : list (nat * nat)), (forall o, In o rest -> In o new) ->
         (0 < v -> In (sl, v) new) ->
         forall a k, a + 1 < idx + 1 -> 0 < k -> is_min lcps a idx k -> exists s, In (s, k) new /\ s <= a).
      { intros new N1 N2 a k Ha Hk K. destruct (Nat.eq_dec a (idx - 1)).
        - subst a. pose proof (is_min_unique _ _ _ _ _ K SGL). subst k. exists sl. split; [auto|lia].
        - destruct (is_min_ex lcps a (idx - 1)) as [k0 K0]; [lia|].
          pose proof (EXT a k0 ltac:(lia) K0) as K1. pose proof (is_min_unique _ _ _ _ _ K K1) as Ek.
          destruct (I7 a k0) as [s [S1 S2]]; auto; try lia.
          destruct (MOVE s k0 S1) as [[M1 M2]|[M1 [M2 M3]]].
          + assert (Ekk : k = k0) by lia. rewrite Ekk. exists s. split; [apply N1; assumption|assumption].
          + assert (Ekv : k = v) by lia. rewrite Ekv in *. exists sl. split; [apply N2; assumption|lia]. }
      assert (COV : forall (new : list (nat * nat)), (forall o, In o rest -> In o new) ->
         (0 < v -> In (sl, v) new) -> covered lcps (idx + 1) new closed').
      { intros new N1 N2 a c k Ha Hc Hk K. destruct (Nat.eq_dec c idx).
        - subst c. right. apply (LASTC new N1 N2); auto. lia.
        - destruct (I6 a c k) as [[b [B1 B2]]|[s [S1 S2]]]; auto; try lia.
          + left. exists b. split; auto. unfold closed'. apply in_or_app. auto.
          + destruct (MOVE s k S1) as [[M1 M2]|[M1 [M2 M3]]].
            * right. exists s. auto.
            * left. eexists. split; [exact M1|]. simpl. lia. }
      destruct (0 <? v) eqn:E3.
      * apply Nat.ltb_lt in E3. simpl. eexists. split; [reflexivity|]. constructor; simpl.
        -- replace (idx + 1 - 1) with idx by lia. reflexivity.
        -- reflexivity.
        -- constructor; auto. rewrite Forall_forall. intros o Ho. simpl. split; [apply SL; assumption|].
           apply Pr. assumption.
        -- intros o [<-|Ho]; [|auto]. split; [lia|]. split; [lia|].
           replace (idx + 1 - 1) with idx by lia. assumption.
        -- assumption.
        -- apply COV; simpl; auto.
        -- intros a k Ha Hk K. replace (idx + 1 - 1) with idx in K by lia.
           apply (LASTC ((sl, v) :: rest)); simpl; auto.
      * apply Nat.ltb_ge in E3. simpl. eexists. split; [reflexivity|]. constructor; simpl.
        -- replace (idx + 1 - 1) with idx by lia. reflexivity.
        -- destruct rest as [|[s l] rest']; simpl; [lia|].
           specialize (Pr (s, l) (or_introl eq_refl)). destruct (Hrest (s, l) (or_introl eq_refl)) as [O1 _]. simpl in Pr. lia.
        -- assumption.
        -- assumption.
        -- assumption.
        -- apply COV; auto. lia.
        -- intros a k Ha Hk K. replace (idx + 1 - 1) with idx in K by lia. apply LASTC; auto. lia.
    + (* same value *)
      apply Nat.ltb_ge in E2. assert (Ev : v = prev) by lia.
      eexists. split; [reflexivity|].
      assert (LAST : forall a k, a + 1 < idx + 1 -> 0 < k -> is_min lcps a idx k -> exists s, In (s, k) open /\ s <= a).
      { intros a k Ha Hk K. destruct (Nat.eq_dec a (idx - 1)).
        - subst a. pose proof (is_min_unique _ _ _ _ _ K SGL). subst k.
          destruct open as [|[s l] open'] eqn:Eopen; simpl in I2; [lia|]. exists s. split; [left; congruence|].
          destruct (I4 (s, l) (or_introl eq_refl)) as [_ [O2 _]]. lia.
        - destruct (is_min_ex lcps a (idx - 1)) as [k0 K0]; [lia|].
          pose proof (EXT a k0 ltac:(lia) K0) as K1. pose proof (is_min_unique _ _ _ _ _ K K1) as Ek.
          pose proof (LE a k0 ltac:(lia) K0). assert (k = k0) by lia. subst k0. apply I7; auto; lia. }
      constructor; simpl.
      * replace (idx + 1 - 1) with idx by lia. rewrite <- Ev. reflexivity.
      * assumption.
      * assumption.
      * intros [s l] Ho. destruct (I4 _ Ho) as [O1 [O2 O3]]. split; [lia|]. split; [lia|].
        replace (idx + 1 - 1) with idx by lia. replace l with (Nat.min l v); [apply EXT; auto|].
        apply LE in O3; lia.
      * intros b Hb. destruct (I5 b Hb) as [[B1 [B2 [B3 [B4 B5]]]] B6]. split; [|lia].
        repeat split; auto; try lia; apply B4.
      * intros a c k Ha Hc Hk K. destruct (Nat.eq_dec c idx).
        -- subst c. right. apply LAST; auto. lia.
        -- apply I6; auto. lia.
      * intros a k Ha Hk K. replace (idx + 1 - 1) with idx in K by lia. apply LAST; auto.
Qed.

(** A block as returned: interval of the LCP array on which the minimum is its
    length, ending where the prefix gets shorter. *)
Definition block_ok (lcps : list nat) (b : block) : Prop :=
  0 < b_len b /\ b_start b < b_end b /\ b_end b < length lcps /\
  is_min lcps (b_start b) (b_end b) (b_len b) /\
  (b_end b + 1 = length lcps \/ nth (b_end b + 1) lcps 0 < b_len b).

Lemma combine_seq_nth : forall (l : list nat) s, combine (seq s (length l)) l = map (fun i => (s + i, nth i l 0)) (seq 0 (length l)).
Proof.
  induction l; intros; simpl; auto. rewrite Nat.add_0_r. f_equal. rewrite IHl.
  rewrite <- seq_shift, map_map. apply map_ext. intros. f_equal. lia.
Qed.

Theorem split_lcp_spec : forall lcps, nth 0 lcps 0 = 0 ->
  exists bs, split_lcp lcps = Ok bs /\
    (forall b, In b bs -> block_ok lcps b) /\
    (forall a c k, a < c -> c < length lcps -> 0 < k -> is_min lcps a c k ->
       exists b, In b bs /\ b_start b <= a /\ c <= b_end b /\ b_len b = k).
Proof.
  intros lcps Z. unfold split_lcp. rewrite combine_seq_nth.
  destruct lcps as [|x0 l] eqn:El.
  - simpl. exists []. split; [reflexivity|]. split; [intros b []|]. simpl. lia.
  - rewrite <- El in *. set (n := length lcps).
    assert (Ln : n = S (length l)) by (unfold n; rewrite El; reflexivity).
    replace (map (fun i => (0 + i, nth i lcps 0)) (seq 0 n)) with
      ((0, 0) :: map (fun i => (i, nth i lcps 0)) (seq 1 (n - 1))).
    2:{ rewrite Ln. simpl. rewrite Nat.sub_0_r, Z. reflexivity. }
    simpl foldM.
    destruct (foldM_inv split_step (fun pre st => split_inv lcps (S (length pre)) st)
      (map (fun i => (i, nth i lcps 0)) (seq 1 (n - 1))) (0, [], [])) as [st [E1 E2]].
    + constructor; simpl; auto; try lia; try (intros; contradiction).
      * constructor.
      * intros a c k Ha Hc. lia.
    + intros pre x st [post Ep] HI.
      assert (Lp : nth_error (map (fun i => (i, nth i lcps 0)) (seq 1 (n - 1))) (length pre) = Some x).
      { rewrite Ep, nth_error_app2, Nat.sub_diag by lia. reflexivity. }
      assert (Lq : length pre < n - 1).
      { assert (length pre < length (map (fun i => (i, nth i lcps 0)) (seq 1 (n - 1)))) by (apply nth_error_Some; congruence).
        rewrite map_length, seq_length in H. assumption. }
      rewrite nth_error_map in Lp. 
      assert (nth_error (seq 1 (n - 1)) (length pre) = Some (1 + length pre)).
      { rewrite nth_error_nth' with (d := 0) by (rewrite seq_length; lia). rewrite seq_nth by lia. reflexivity. }
      rewrite H in Lp. simpl in Lp. injection Lp as <-.
      destruct (split_step_inv lcps (S (length pre)) st Z) as [st' [S1 S2]]; auto; try lia.
      exists st'. split; [exact S1|]. rewrite app_length. simpl. 
      replace (S (length pre) + 1) with (S (length pre + 1)) in S2 by lia. assumption.
    + rewrite E1. simpl. destruct st as [[prev open] closed]. simpl. eexists. split; [reflexivity|].
      rewrite map_length, seq_length in E2. clear - E2 Ln Z. assert (Sn : S (n - 1) = n) by lia. rewrite Sn in E2.
      destruct E2 as [I1 I2 I3 I4 I5 I6 I7]. simpl in *.
      assert (FO : filter (fun '(_, l0) => 0 <? l0) (rev open) = rev open).
      { apply filter_all. intros [s k] Ho. apply in_rev in Ho. destruct (I4 _ Ho) as [O1 _]. apply Nat.ltb_lt. assumption. }
      rewrite FO. split.
      * intros b Hb. apply in_app_or in Hb as [Hb|Hb].
        -- destruct (I5 b Hb) as [[B1 [B2 [B3 [B4 B5]]]] B6]. unfold n in *. repeat split; auto; try lia; apply B4.
        -- apply in_map_iff in Hb as [[s k] [<- Ho]]. apply in_rev in Ho. destruct (I4 _ Ho) as [O1 [O2 O3]].
           unfold block_ok. simpl. unfold n in *. repeat split; try lia; apply O3.
      * intros a c k Ha Hc Hk K. destruct (I6 a c k) as [[b [B1 B2]]|[s [S1 S2]]]; auto.
        -- exists b. split; auto. apply in_or_app. auto.
        -- exists {| b_start := s; b_end := n - 1; b_len := k |}. split.
           ++ apply in_or_app. right. apply in_map_iff. exists (s, k). split; auto. apply in_rev in S1. assumption.
           ++ simpl. unfold n in *. lia.
Qed.
