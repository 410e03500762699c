(** Correctness of the DC3 suffix array construction (model [dc3]). *)
From Verif Require Import Py Lib SuffixModel RadixProof.

Lemma foldM_ext : forall {A B} (F G : B -> A -> res B) l b,
  (forall b x, In x l -> F b x = G b x) -> foldM F l b = foldM G l b.
Proof.
  induction l; simpl; intros b H; auto. rewrite H by auto. destruct (G b a); simpl; auto.
Qed.

Lemma foldM_seq_aget' : forall {B} (F : B -> nat -> res B) (G : B -> nat -> res B) (a : list nat) m s b,
  (forall b i, G b i = (x <- aget a i ;; F b x)) ->
  s + m <= length a ->
  foldM G (seq s m) b = foldM F (firstn m (skipn s a)) b.
Proof.
  intros B F G a m s b HG H. rewrite <- foldM_seq_aget by assumption. apply foldM_ext. auto.
Qed.

Lemma nth_skipn' : forall (l : list nat) k i, nth i (skipn k l) 0 = nth (k + i) l 0.
Proof. induction l; destruct k; simpl; intros; auto; destruct i; auto. Qed.

Lemma aset_snoc : forall (M S0 : list nat) x, length M < length S0 ->
  aset (M ++ skipn (length M) S0) (length M) x = Ok ((M ++ [x]) ++ skipn (length (M ++ [x])) S0).
Proof.
  intros M S0 x H. rewrite aset_ok by (rewrite app_length, skipn_length; lia). f_equal.
  destruct (nth_error_lt_ex S0 (length M) H) as [y Hy]. rewrite (skipn_nth_error _ _ _ Hy).
  rewrite app_length. change (length [x]) with 1. rewrite Nat.add_1_r. rewrite <- app_assoc.
  generalize (skipn (S (length M)) S0). clear. intros l. induction M; simpl; auto. rewrite IHM. reflexivity.
Qed.

Lemma write_all : forall (h : nat -> nat) l M S0, length M + length l <= length S0 ->
  foldM (fun '(Sx, k) x => S' <- aset Sx k (h x) ;; Ok (S', k + 1)) l (M ++ skipn (length M) S0, length M) =
  Ok ((M ++ map h l) ++ skipn (length (M ++ map h l)) S0, length (M ++ map h l)).
Proof.
  intros h. induction l as [|x l IH]; intros M S0 H; simpl in *.
  - rewrite app_nil_r. reflexivity.
  - rewrite aset_snoc by lia. simpl. replace (length M + 1) with (length (M ++ [h x])) by (rewrite app_length; reflexivity).
    rewrite IH by (rewrite app_length; simpl; lia). rewrite <- !app_assoc. reflexivity.
Qed.

Lemma StronglySorted_lt_nth : forall (R : nat -> nat -> Prop) l i j, StronglySorted R l -> i < j -> j < length l ->
  R (nth i l 0) (nth j l 0).
Proof.
  induction l; intros i j HS Hij Hj; simpl in Hj; [lia|]. inversion HS as [|? ? S1 S2]; subst.
  destruct i; destruct j; try lia; simpl.
  - rewrite Forall_forall in S2. apply S2. apply nth_In. lia.
  - apply IHl; auto; lia.
Qed.

Lemma StronglySorted_map : forall {A B} (h : A -> B) (R : B -> B -> Prop) l,
  StronglySorted R (map h l) <-> StronglySorted (fun a b => R (h a) (h b)) l.
Proof.
  induction l; simpl; [split; constructor|]. split; intros H; inversion H as [|? ? S1 S2]; subst; constructor.
  - apply IHl. assumption.
  - rewrite Forall_map in S2. assumption.
  - apply IHl. assumption.
  - rewrite Forall_map. assumption.
Qed.

(** ** The merge phase *)
Section Merge.
  Variables (s s12 SA12 SA0 S0 : list nat) (n n0 n02 t0 : nat) (lt : nat -> nat -> Prop).
  Hypothesis lt_trans : forall a b c, lt a b -> lt b c -> lt a c.
  Hypothesis HS0 : n <= length S0.
  Hypothesis L12len : n02 <= length SA12.
  Hypothesis L0len : length SA0 = n0.
  Let L12 := firstn n02 SA12.
  Hypothesis Htest : forall v j, In v (skipn t0 L12) -> In j SA0 ->
    exists b : bool, merge_test s s12 n0 v j = Ok b /\ if b then lt (pos12 n0 v) j else lt j (pos12 n0 v).

  Lemma In_skipn : forall {A} (l : list A) k x, In x (skipn k l) -> In x l.
  Proof. intros A l k x H. rewrite <- (firstn_skipn k l). apply in_or_app. auto. Qed.

  Lemma merge_loop_spec : forall fuel M p t,
    let k := length M in
    let A := map (pos12 n0) (skipn t L12) in
    let B := skipn p SA0 in
    t0 <= t -> t < n02 -> p < n0 -> k + (n02 - t) + (n0 - p) = n -> n <= fuel + k ->
    StronglySorted lt M -> StronglySorted lt A -> StronglySorted lt B ->
    (forall a b, In a M -> In b (A ++ B) -> lt a b) ->
    exists L, merge_loop fuel s s12 SA12 SA0 n n0 n02 p t k (M ++ skipn k S0) = Ok (L ++ skipn n S0) /\
      Permutation L (M ++ A ++ B) /\ StronglySorted lt L /\ length L = n.
  Proof.
    induction fuel as [|fuel IH]; intros M p t k A B Ht0 Ht Hp Hk Hf SM SA SB HM; [lia|].
    assert (LL12 : length L12 = n02) by (unfold L12; rewrite firstn_length; lia).
    destruct (nth_error_lt_ex L12 t) as [v Hv]; [lia|].
    destruct (nth_error_lt_ex SA0 p) as [j Hj]; [lia|].
    assert (Hv' : nth_error SA12 t = Some v).
    { unfold L12 in Hv. rewrite nth_error_firstn in Hv. apply Nat.ltb_lt in Ht. rewrite Ht in Hv. assumption. }
    pose proof (skipn_nth_error _ _ _ Hv) as EA. pose proof (skipn_nth_error _ _ _ Hj) as EB.
    assert (EA' : A = pos12 n0 v :: map (pos12 n0) (skipn (S t) L12)) by (unfold A; rewrite EA; reflexivity).
    assert (EB' : B = j :: skipn (S p) SA0) by (unfold B; rewrite EB; reflexivity).
    simpl merge_loop. assert (Hkn : k <? n = true) by (apply Nat.ltb_lt; lia). rewrite Hkn.
    unfold aget. rewrite Hv'. simpl. rewrite Hj. simpl.
    destruct (Htest v j) as [b [Eb Hb]].
    { replace t with (t0 + (t - t0)) in Hv by lia. rewrite <- nth_error_skipn in Hv. eapply nth_error_In; eauto. }
    { eapply nth_error_In; eauto. }
    rewrite Eb. simpl. destruct b.
    - unfold k. rewrite aset_snoc by (unfold k in *; lia). simpl.
      destruct (t + 1 =? n02) eqn:Et.
      + apply Nat.eqb_eq in Et.
        assert (Elast : skipn (S t) L12 = []) by (apply skipn_all2; lia).
        assert (D : drain0 SA0 p n0 (length M + 1) ((M ++ [pos12 n0 v]) ++ skipn (length (M ++ [pos12 n0 v])) S0) =
                    Ok (((M ++ [pos12 n0 v]) ++ B) ++ skipn n S0, n)).
        { unfold drain0.
          rewrite (foldM_seq_aget' (fun '(Sx, k) x => S' <- aset Sx k x ;; Ok (S', k + 1)) _ SA0); [| intros [? ?] ?; reflexivity | lia].
          replace (firstn (n0 - p) (skipn p SA0)) with B by (unfold B; rewrite firstn_all2; [reflexivity|rewrite skipn_length; lia]).
          replace (length M + 1) with (length (M ++ [pos12 n0 v])) by (rewrite app_length; reflexivity).
          assert (LB : length B = n0 - p) by (unfold B; rewrite skipn_length; lia).
          pose proof (write_all (fun x => x) B (M ++ [pos12 n0 v]) S0) as W. rewrite map_id in W. rewrite W.
          - assert (Q : length ((M ++ [pos12 n0 v]) ++ B) = n) by (rewrite !app_length, LB; simpl; unfold k in *; lia).
            rewrite Q. reflexivity.
          - rewrite app_length, LB. simpl. unfold k in *. lia. }
        rewrite D. simpl.
        exists ((M ++ [pos12 n0 v]) ++ B).
        assert (Hend : forall f', merge_loop f' s s12 SA12 SA0 n n0 n02 n0 (t + 1) (n + 1) (((M ++ [pos12 n0 v]) ++ B) ++ skipn n S0) =
                  Ok (((M ++ [pos12 n0 v]) ++ B) ++ skipn n S0)).
        { intros f'. assert (Q : n + 1 <? n = false) by (apply Nat.ltb_ge; lia). destruct f'; simpl; rewrite Q; reflexivity. }
        rewrite Hend. split; [reflexivity|]. split; [|split].
        * rewrite EA', Elast. simpl. rewrite <- app_assoc. reflexivity.
        * apply StronglySorted_app. split; [|split; [assumption|]].
          -- apply StronglySorted_app. split; [assumption|]. split; [repeat constructor|].
             intros a b Ha [<-|[]]. apply HM; auto. rewrite EA'. left. reflexivity.
          -- intros a b Ha Hbb. apply in_app_or in Ha as [Ha|[<-|[]]].
             ++ apply HM; auto. apply in_or_app. auto.
             ++ rewrite EB' in Hbb. destruct Hbb as [<-|Hbb]; auto.
                apply lt_trans with j; auto. rewrite EB' in SB. apply StronglySorted_inv in SB as [_ S2].
                rewrite Forall_forall in S2. auto.
        * rewrite !app_length. unfold B. rewrite skipn_length. simpl. unfold k in *. lia.
      + apply Nat.eqb_neq in Et.
        replace (length M + 1) with (length (M ++ [pos12 n0 v])) by (rewrite app_length; reflexivity).
        replace (t + 1) with (S t) by lia.
        destruct (IH (M ++ [pos12 n0 v]) p (S t)) as [L [E [P1 [P2 P3]]]]; try lia.
        * rewrite app_length. simpl. unfold k in *. lia.
        * rewrite app_length. simpl. unfold k in *. lia.
        * apply StronglySorted_app. split; [assumption|]. split; [repeat constructor|].
          intros a b Ha [<-|[]]. apply HM; auto. rewrite EA'. left. reflexivity.
        * rewrite EA' in SA. apply StronglySorted_inv in SA; apply SA.
        * assumption.
        * intros a b Ha Hbb. apply in_app_or in Ha as [Ha|[<-|[]]].
          -- apply HM; auto. rewrite EA'. right. apply in_or_app. apply in_app_or in Hbb. tauto.
          -- apply in_app_or in Hbb as [Hbb|Hbb].
             ++ rewrite EA' in SA. apply StronglySorted_inv in SA as [_ S2]. rewrite Forall_forall in S2. auto.
             ++ fold B in Hbb. rewrite EB' in Hbb. destruct Hbb as [<-|Hbb]; auto.
                apply lt_trans with j; auto. rewrite EB' in SB. apply StronglySorted_inv in SB as [_ S2].
                rewrite Forall_forall in S2. auto.
        * exists L. split; [exact E|]. split; [|split; assumption].
          rewrite P1. rewrite EA'. rewrite <- app_assoc. reflexivity.
    - unfold k. rewrite aset_snoc by (unfold k in *; lia). simpl.
      destruct (p + 1 =? n0) eqn:Et.
      + apply Nat.eqb_eq in Et.
        assert (Elast : skipn (S p) SA0 = []) by (apply skipn_all2; lia).
        assert (LA : length A = n02 - t) by (unfold A; rewrite map_length, skipn_length; lia).
        assert (D : drain12 SA12 n0 t n02 (length M + 1) ((M ++ [j]) ++ skipn (length (M ++ [j])) S0) =
                    Ok (((M ++ [j]) ++ A) ++ skipn n S0, n)).
        { unfold drain12.
          rewrite (foldM_seq_aget' (fun '(Sx, k) x => S' <- aset Sx k (pos12 n0 x) ;; Ok (S', k + 1)) _ SA12); [| intros [? ?] ?; reflexivity | lia].
          replace (firstn (n02 - t) (skipn t SA12)) with (skipn t L12) by (unfold L12; apply skipn_firstn_comm).
          replace (length M + 1) with (length (M ++ [j])) by (rewrite app_length; reflexivity).
          rewrite write_all.
          - fold A. assert (Q : length ((M ++ [j]) ++ A) = n) by (rewrite !app_length, LA; simpl; unfold k in *; lia).
            rewrite Q. reflexivity.
          - rewrite app_length, skipn_length. simpl. unfold k in *. lia. }
        rewrite D. simpl.
        exists ((M ++ [j]) ++ A).
        assert (Hend : forall f', merge_loop f' s s12 SA12 SA0 n n0 n02 (p + 1) n02 (n + 1) (((M ++ [j]) ++ A) ++ skipn n S0) =
                  Ok (((M ++ [j]) ++ A) ++ skipn n S0)).
        { intros f'. assert (Q : n + 1 <? n = false) by (apply Nat.ltb_ge; lia). destruct f'; simpl; rewrite Q; reflexivity. }
        rewrite Hend. split; [reflexivity|]. split; [|split].
        * rewrite EB', Elast. rewrite <- app_assoc. apply Permutation_app_head. apply Permutation_app_comm.
        * apply StronglySorted_app. split; [|split; [assumption|]].
          -- apply StronglySorted_app. split; [assumption|]. split; [repeat constructor|].
             intros a b Ha [<-|[]]. apply HM; auto. apply in_or_app. right. rewrite EB'. left. reflexivity.
          -- intros a b Ha Hbb. apply in_app_or in Ha as [Ha|[<-|[]]].
             ++ apply HM; auto. apply in_or_app. auto.
             ++ rewrite EA' in Hbb. destruct Hbb as [<-|Hbb]; auto.
                apply lt_trans with (pos12 n0 v); auto. rewrite EA' in SA. apply StronglySorted_inv in SA as [_ S2].
                rewrite Forall_forall in S2. auto.
        * rewrite !app_length, LA. simpl. unfold k in *. lia.
      + apply Nat.eqb_neq in Et.
        replace (length M + 1) with (length (M ++ [j])) by (rewrite app_length; reflexivity).
        replace (p + 1) with (S p) by lia.
        destruct (IH (M ++ [j]) (S p) t) as [L [E [P1 [P2 P3]]]]; try lia.
        * rewrite app_length. simpl. unfold k in *. lia.
        * rewrite app_length. simpl. unfold k in *. lia.
        * apply StronglySorted_app. split; [assumption|]. split; [repeat constructor|].
          intros a b Ha [<-|[]]. apply HM; auto. apply in_or_app. right. rewrite EB'. left. reflexivity.
        * assumption.
        * rewrite EB' in SB. apply StronglySorted_inv in SB; apply SB.
        * intros a b Ha Hbb. apply in_app_or in Ha as [Ha|[<-|[]]].
          -- apply HM; auto. rewrite EB'. apply in_or_app. apply in_app_or in Hbb. simpl. tauto.
          -- apply in_app_or in Hbb as [Hbb|Hbb].
             ++ fold A in Hbb. rewrite EA' in Hbb. destruct Hbb as [<-|Hbb]; auto.
                apply lt_trans with (pos12 n0 v); auto. rewrite EA' in SA. apply StronglySorted_inv in SA as [_ S2].
                rewrite Forall_forall in S2. auto.
             ++ rewrite EB' in SB. apply StronglySorted_inv in SB as [_ S2]. rewrite Forall_forall in S2. auto.
        * exists L. split; [exact E|]. split; [|split; assumption].
          rewrite P1. rewrite EB'. rewrite <- app_assoc. fold A. apply Permutation_app_head.
          simpl. apply Permutation_middle.
  Qed.
End Merge.

Lemma NoDup_map_inj_in : forall {A B} (h : A -> B) l,
  (forall x y, In x l -> In y l -> h x = h y -> x = y) -> NoDup l -> NoDup (map h l).
Proof.
  induction l; intros H N; [constructor|]. inversion N; subst. simpl. constructor.
  - rewrite in_map_iff. intros [y [E Hy]]. apply H in E; simpl; auto. subst. contradiction.
  - apply IHl; auto. intros. apply H; simpl; auto.
Qed.

(** ** Sample positions *)
Lemma div3 : forall a, 3 * (a / 3) <= a /\ a < 3 * (a / 3) + 3.
Proof. intros a. pose proof (Nat.mul_div_le a 3). pose proof (Nat.mul_succ_div_gt a 3). lia. Qed.

Lemma mod3 : forall a, a = 3 * (a / 3) + a mod 3 /\ a mod 3 < 3.
Proof. intros a. split; [apply Nat.div_mod; lia | apply Nat.mod_upper_bound; lia]. Qed.

Section Positions.
  Variable n : nat.
  Let n0 := (n + 2) / 3.
  Let n1 := (n + 1) / 3.
  Let n2 := n / 3.
  Let n02 := n0 + n2.
  Definition P12 := filter (fun i => negb (i mod 3 =? 0)) (seq 0 (n + ((n + 2) / 3 - (n + 1) / 3))).
  Definition idx (p : nat) := if p mod 3 =? 1 then p / 3 else p / 3 + (n + 2) / 3.

  Lemma P12_In : forall p, In p P12 <-> p < n + (n0 - n1) /\ p mod 3 <> 0.
  Proof.
    intros p. unfold P12. rewrite filter_In, in_seq. fold n0 n1.
    destruct (p mod 3 =? 0) eqn:E; simpl; [apply Nat.eqb_eq in E|apply Nat.eqb_neq in E]; intuition; try lia; try discriminate.
  Qed.

  Lemma nfacts : 3 * n0 <= n + 2 /\ n + 2 < 3 * n0 + 3 /\ 3 * n1 <= n + 1 /\ n + 1 < 3 * n1 + 3 /\ 3 * n2 <= n /\ n < 3 * n2 + 3.
  Proof. unfold n0, n1, n2. pose proof (div3 (n + 2)). pose proof (div3 (n + 1)). pose proof (div3 n). lia. Qed.

  Lemma idx_pos : forall v, v < n02 -> In (pos12 n0 v) P12 /\ idx (pos12 n0 v) = v.
  Proof.
    intros v Hv. unfold n02 in Hv. pose proof nfacts. rewrite P12_In. unfold pos12, idx.
    change ((n + 2) / 3) with n0. destruct (v <? n0) eqn:E.
    - apply Nat.ltb_lt in E.
      assert (M : (v * 3 + 1) mod 3 = 1) by (rewrite Nat.add_comm, Nat.mod_add; [reflexivity|lia]).
      assert (D : (v * 3 + 1) / 3 = v) by (rewrite Nat.add_comm, Nat.div_add; [reflexivity|lia]).
      rewrite M, D. simpl. lia.
    - apply Nat.ltb_ge in E.
      assert (M : ((v - n0) * 3 + 2) mod 3 = 2) by (rewrite Nat.add_comm, Nat.mod_add; [reflexivity|lia]).
      assert (D : ((v - n0) * 3 + 2) / 3 = v - n0) by (rewrite Nat.add_comm, Nat.div_add; [reflexivity|lia]).
      rewrite M, D. simpl. lia.
  Qed.

  Lemma pos_idx : forall p, In p P12 -> idx p < n02 /\ pos12 n0 (idx p) = p.
  Proof.
    intros p Hp. apply P12_In in Hp as [H1 H2]. pose proof nfacts. pose proof (mod3 p).
    unfold idx, pos12, n02. change ((n + 2) / 3) with n0.
    destruct (p mod 3 =? 1) eqn:E.
    - apply Nat.eqb_eq in E. assert (Q : p / 3 <? n0 = true) by (apply Nat.ltb_lt; lia). rewrite Q.
      apply Nat.ltb_lt in Q. lia.
    - apply Nat.eqb_neq in E. assert (Q : p / 3 + n0 <? n0 = false) by (apply Nat.ltb_ge; lia). rewrite Q. lia.
  Qed.

  Lemma P12_NoDup : NoDup P12.
  Proof. unfold P12. apply NoDup_filter. apply seq_NoDup. Qed.

  Lemma P12_perm : Permutation P12 (map (pos12 n0) (seq 0 n02)).
  Proof.
    apply NoDup_Permutation.
    - apply P12_NoDup.
    - apply NoDup_map_inj_in; [|apply seq_NoDup].
      intros x y Hx Hy E. apply in_seq in Hx, Hy.
      destruct (idx_pos x) as [_ <-]; [lia|]. destruct (idx_pos y) as [_ <-]; [lia|]. rewrite E. reflexivity.
    - intros p. rewrite in_map_iff. split.
      + intros H. exists (idx p). destruct (pos_idx p H). split; auto. apply in_seq. lia.
      + intros [v [<- Hv]]. apply in_seq in Hv. apply idx_pos. lia.
  Qed.

  Lemma P12_length : length P12 = n02.
  Proof. rewrite (Permutation_length P12_perm), map_length, seq_length. reflexivity. Qed.

  Lemma P12_le : forall p, In p P12 -> p <= n.
  Proof. intros p H. apply P12_In in H as [H _]. pose proof nfacts. lia. Qed.
End Positions.

Section Body.
  Variables (s : list nat) (n K : nat).
  Definition fs (i : nat) := nth i s 0.
  Let f := fs.
  Let n0 := (n + 2) / 3.
  Let n1 := (n + 1) / 3.
  Let n2 := n / 3.
  Let n02 := n0 + n2.
  Hypothesis Hn : 2 <= n.
  Hypothesis Hlen : n + 3 <= length s.
  Hypothesis HB : bounded_seq f n.
  Hypothesis HK : forall i, f i <= K.

  Definition tle (p q : nat) : Prop :=
    fs p < fs q \/ fs p = fs q /\ (fs (S p) < fs (S q) \/ fs (S p) = fs (S q) /\
      (fs (S (S p)) < fs (S (S q)) \/ fs (S (S p)) = fs (S (S q)) /\ True)).
  Definition teq (p q : nat) : Prop := fs p = fs q /\ fs (S p) = fs (S q) /\ fs (S (S p)) = fs (S (S q)).

  Lemma tle_cases : forall p q, tle p q -> teq p q \/ slt f p q /\ ~ teq p q.
  Proof.
    intros p q H. unfold tle, teq in *. destruct H as [H|[H [H1|[H1 [H2|[H2 _]]]]]].
    - right. split; [apply slt_lt; assumption|]. lia.
    - right. split; [apply slt_eq; [assumption|]; apply slt_lt; assumption|]. lia.
    - right. split; [apply slt_eq; [assumption|]; apply slt_eq; [assumption|]; apply slt_lt; assumption|]. lia.
    - left. auto.
  Qed.

  Lemma teq_slt : forall p q, teq p q -> slt f (p + 3) (q + 3) -> slt f p q.
  Proof.
    intros p q [A [B C]] H. apply slt_eq; [assumption|]. apply slt_eq; [assumption|]. apply slt_eq; [assumption|].
    replace (S (S (S p))) with (p + 3) by lia. replace (S (S (S q))) with (q + 3) by lia. assumption.
  Qed.

  Lemma slice3 : forall p, p <= n -> slice s p 3 = [f p; f (S p); f (S (S p))].
  Proof.
    intros p Hp. unfold slice.
    assert (Q : forall k, k < 3 -> nth_error s (p + k) = Some (f (p + k))).
    { intros k Hk. apply nth_error_nth'. lia. }
    rewrite (skipn_nth_error s p (f p)) by (rewrite <- (Nat.add_0_r p) at 1; rewrite Q by lia; rewrite Nat.add_0_r; reflexivity).
    rewrite (skipn_nth_error s (S p) (f (S p))) by (rewrite <- (Nat.add_1_r p); apply Q; lia).
    rewrite (skipn_nth_error s (S (S p)) (f (S (S p)))) by (replace (S (S p)) with (p + 2) by lia; apply Q; lia).
    reflexivity.
  Qed.

  Lemma nats_eqb_ok : forall a b, nats_eqb a b = true <-> a = b.
  Proof.
    induction a; destruct b; simpl; try (split; congruence).
    rewrite andb_true_iff, Nat.eqb_eq, IHa. split; [intros [-> ->]; reflexivity|intros E; inversion E; auto].
  Qed.

  Lemma slice_teq : forall p q, p <= n -> q <= n -> (slice s p 3 = slice s q 3 <-> teq p q).
  Proof.
    intros p q Hp Hq. rewrite !slice3 by assumption. unfold teq. split.
    - intros E. inversion E. auto.
    - unfold f. intros [E1 [E2 E3]]. rewrite E1, E2, E3. reflexivity.
  Qed.

  Definition tlt (p q : nat) : Prop := tle p q /\ ~ teq p q.

  Lemma tlt_slt : forall p q, tlt p q -> slt f p q.
  Proof. intros p q [A B]. destruct (tle_cases _ _ A) as [H|[H _]]; [contradiction|assumption]. Qed.

  (** three radix passes *)
  Definition key (k x : nat) := nth x (skipn k s) 0.
  Lemma key_fs : forall k x, key k x = fs (k + x).
  Proof. intros. apply nth_skipn'. Qed.

  Lemma pass_spec : forall k l tl b, k < 3 -> Permutation l (P12 n) -> n02 <= length b ->
    radixPass (l ++ tl) b (skipn k s) n02 K = Ok (keyed_sort (key k) K l ++ skipn n02 b) /\
    Permutation (keyed_sort (key k) K l) (P12 n).
  Proof.
    intros k l tl b Hk HP Hb.
    assert (Ll : length l = n02) by (rewrite (Permutation_length HP); apply P12_length).
    assert (F : firstn n02 (l ++ tl) = l).
    { rewrite firstn_app, Ll, Nat.sub_diag. simpl. rewrite app_nil_r. apply firstn_all2. lia. }
    split.
    - rewrite radixPass_spec; [rewrite F; reflexivity| rewrite app_length; lia | assumption |].
      rewrite F. intros x Hx. rewrite skipn_length. apply (Permutation_in _ HP) in Hx. apply P12_le in Hx.
      split; [lia|]. fold (key k x). rewrite key_fs. apply HK.
    - rewrite keyed_sort_perm; [assumption|]. intros x Hx. rewrite key_fs. apply HK.
  Qed.

  (** naming *)
  Definition name_step' (st : nat * option (list nat) * list nat) (p : nat) :=
    let '(name, c, s12) := st in
    let cSA := slice s p 3 in
    let same := match c with Some c' => nats_eqb cSA c' | None => false end in
    let name' := if same then name else name + 1 in
    let c' := if same then c else Some cSA in
    s12' <- aset s12 (idx n p) name' ;;
    Ok (name', c', s12').

  Lemma naming_spec : forall L s0, Permutation L (P12 n) -> StronglySorted tle L -> length s0 = n02 + 3 ->
    exists name c s12, foldM name_step' L (0, None, s0) = Ok (name, c, s12) /\
      length s12 = n02 + 3 /\ name <= n02 /\ 1 <= name /\
      (forall j, n02 <= j -> nth j s12 0 = nth j s0 0) /\
      (forall v, v < n02 -> 1 <= nth v s12 0 <= name) /\
      (forall v w, v < n02 -> w < n02 -> nth v s12 0 < nth w s12 0 ->
          tlt (pos12 n0 v) (pos12 n0 w)) /\
      (forall v w, v < n02 -> w < n02 -> nth v s12 0 = nth w s12 0 -> teq (pos12 n0 v) (pos12 n0 w)) /\
      (name = n02 -> forall i, i < n02 -> nth (idx n (nth i L 0)) s12 0 = S i).
  Proof.
    intros L s0 HP HS Hs0.
    assert (LL : length L = n02) by (rewrite (Permutation_length HP); apply P12_length).
    assert (ND : NoDup L) by (apply (Permutation_NoDup (Permutation_sym HP)), P12_NoDup).
    destruct (foldM_inv name_step' (fun pre st => let '(name, c, s12) := st in
       length s12 = n02 + 3 /\ name <= length pre /\
       (match rev pre with [] => c = None /\ name = 0 | q :: _ => (exists c0, c = Some c0 /\ c0 = slice s q 3) /\ nth (idx n q) s12 0 = name end) /\
       (forall j, n02 <= j -> nth j s12 0 = nth j s0 0) /\
       (forall p, In p pre -> 1 <= nth (idx n p) s12 0 <= name) /\
       (forall p q, In p pre -> In q pre -> nth (idx n p) s12 0 < nth (idx n q) s12 0 -> tlt p q) /\
       (forall p q, In p pre -> In q pre -> nth (idx n p) s12 0 = nth (idx n q) s12 0 -> teq p q) /\
       (name = length pre -> forall i, i < length pre -> nth (idx n (nth i pre 0)) s12 0 = S i)) L (0, None, s0))
      as [[[name c] s12] [E [I1 [I2 [I3 [I4 [I5 [I6 [I7 I8]]]]]]]]].
    - simpl. repeat split; auto; try lia; intros; contradiction.
    - intros pre x [[name c] s12] [post Ep] [I1 [I2 [I3 [I4 [I5 [I6 [I7 I8]]]]]]].
      assert (InP : forall p, In p pre -> In p L) by (intros; rewrite Ep; apply in_or_app; auto).
      assert (InX : In x L) by (rewrite Ep; apply in_or_app; right; left; reflexivity).
      assert (Hx : In x (P12 n)) by (apply (Permutation_in _ HP); assumption).
      assert (Hpre : forall p, In p pre -> In p (P12 n)) by (intros; apply (Permutation_in _ HP); auto).
      pose proof (pos_idx n x Hx) as [X1 X2]. fold n0 n2 in X1. fold n02 in X1.
      assert (Nx : ~ In x pre).
      { rewrite Ep in ND. apply NoDup_remove_2 in ND. intros H. apply ND. apply in_or_app. auto. }
      assert (NI : forall p, In p pre -> idx n x <> idx n p).
      { intros p Hp E. pose proof (pos_idx n p (Hpre p Hp)) as [Y1 Y2]. rewrite E in X2. congruence. }
      assert (Sx : forall p, In p pre -> tle p x).
      { intros p Hp. rewrite Ep in HS. apply StronglySorted_app in HS as [_ [_ HS]]. apply HS; simpl; auto. }
      simpl. unfold name_step'.
      set (same := match c with Some c' => nats_eqb (slice s x 3) c' | None => false end).
      set (name' := if same then name else name + 1).
      rewrite aset_ok by lia. simpl. eexists. split; [reflexivity|]. cbv beta iota.
      assert (UP : forall p, In p pre -> nth (idx n p) (upd s12 (idx n x) name') 0 = nth (idx n p) s12 0).
      { intros p Hp. rewrite nth_upd by lia. destruct (idx n x =? idx n p) eqn:D; auto.
        apply Nat.eqb_eq in D. exfalso. apply (NI p); auto. }
      assert (UX : nth (idx n x) (upd s12 (idx n x) name') 0 = name').
      { rewrite nth_upd, Nat.eqb_refl by lia. reflexivity. }
      (* relation of x with the last one *)
      assert (LAST : (same = true -> exists q, In q pre /\ teq q x /\ nth (idx n q) s12 0 = name) /\
                     (same = false -> forall p, In p pre -> nth (idx n p) s12 0 = name -> ~ teq p x)).
      { unfold same. clear name' UP UX same. destruct (rev pre) as [|q rest] eqn:R.
        - destruct I3 as [-> _]. split; [discriminate|]. assert (pre = []) by (rewrite <- (rev_involutive pre), R; reflexivity).
          subst pre. intros _ p [].
        - destruct I3 as [[c0 [-> ->]] I3]. assert (Hq : In q pre) by (rewrite in_rev, R; left; reflexivity).
          assert (Hqn : q <= n) by (apply P12_le; auto). assert (Hxn : x <= n) by (apply P12_le; auto).
          split.
          + intros H. apply nats_eqb_ok in H. apply slice_teq in H; auto. exists q. repeat split; auto; symmetry; apply H.
          + intros H p Hp Np TE.
            assert (T2 : teq p q) by (apply I7; auto; congruence).
            assert (T3 : slice s x 3 = slice s q 3).
            { apply slice_teq; auto. destruct TE as [? [? ?]], T2 as [? [? ?]]. repeat split; congruence. }
            rewrite T3 in H. assert (nats_eqb (slice s q 3) (slice s q 3) = true) by (apply nats_eqb_ok; reflexivity). congruence. }
      destruct LAST as [LT LF].
      rewrite upd_length, app_length. simpl. split; [assumption|]. split; [unfold name'; destruct same; lia|].
      split.
      { rewrite rev_app_distr. simpl. split; [|assumption].
        destruct same eqn:Es.
        - unfold same in Es. destruct c as [c'|]; [|discriminate]. apply nats_eqb_ok in Es. exists c'. split; auto.
        - exists (slice s x 3). auto. }
      split.
      { intros j Hj. rewrite nth_upd by lia. destruct (idx n x =? j) eqn:D; [apply Nat.eqb_eq in D; lia|]. auto. }
      split.
      { intros p Hp. apply in_app_or in Hp as [Hp|[<-|[]]].
        - rewrite UP by assumption. specialize (I5 p Hp). unfold name'. destruct same; lia.
        - rewrite UX. unfold name'. destruct same eqn:Es; [|lia]. destruct (LT eq_refl) as [q [Q1 [Q2 Q3]]].
          specialize (I5 q Q1). lia. }
      split.
      { intros p q Hp Hq. apply in_app_or in Hp as [Hp|[<-|[]]]; apply in_app_or in Hq as [Hq|[<-|[]]].
        - rewrite !UP by assumption. apply I6; assumption.
        - rewrite UP, UX by assumption. intros H. unfold name' in H. specialize (Sx p Hp). destruct same eqn:Es.
          + destruct (LT eq_refl) as [q [Q1 [Q2 Q3]]].
            assert (SL : tlt p q) by (apply I6; auto; lia).
            split; auto. unfold tlt, tle, teq in *. lia.
          + split; auto. intros TE. pose proof (LF eq_refl p Hp) as NP.
            destruct (rev pre) as [|q rest] eqn:R.
            { assert (pre = []) by (rewrite <- (rev_involutive pre), R; reflexivity). subst pre. destruct Hp. }
            assert (Hq : In q pre) by (rewrite in_rev, R; left; reflexivity). destruct I3 as [_ I3].
            pose proof (LF eq_refl q Hq I3) as NQ. specialize (I5 p Hp).
            assert (SL : tlt p q) by (apply I6; auto; destruct (Nat.eq_dec (nth (idx n p) s12 0) name) as [e|e]; [exfalso; exact (NP e TE)|lia]).
            assert (Sq : tle q x).
            { rewrite Ep in HS. apply StronglySorted_app in HS as [_ [_ HS]]. apply HS; simpl; auto. }
            clear - Sx TE SL NQ Sq. unfold tlt, tle, teq in *. lia.
        - rewrite (UP q Hq), UX. intros H. specialize (I5 q Hq). unfold name' in H. destruct same; lia.
        - rewrite !UX. lia. }
      split.
      { assert (GE : forall p, In p pre -> nth (idx n p) s12 0 = name' -> teq p x).
        { intros p Hp H. unfold name' in H. destruct same eqn:Es.
          - destruct (LT eq_refl) as [q [Q1 [Q2 Q3]]]. assert (T : teq p q) by (apply I7; auto; lia).
            unfold teq in *. lia.
          - specialize (I5 p Hp). lia. }
        intros p q Hp Hq. apply in_app_or in Hp as [Hp|[<-|[]]]; apply in_app_or in Hq as [Hq|[<-|[]]].
        - rewrite !UP by assumption. apply I7; assumption.
        - rewrite UP, UX by assumption. intros H. apply GE; auto.
        - rewrite (UP q Hq), UX. intros H. symmetry in H. apply (GE q) in H; auto. unfold teq in *. lia.
        - intros _. unfold teq. auto. }
      { intros H i Hi. unfold name' in H. destruct same eqn:Es; [lia|].
        destruct (Nat.eq_dec i (length pre)).
        - subst i. rewrite app_nth2, Nat.sub_diag by lia. simpl. rewrite UX. unfold name'. lia.
        - rewrite app_nth1 by lia. rewrite UP by (apply nth_In; lia). apply I8; lia. }
    - exists name, c, s12. split; [assumption|]. split; [assumption|]. split; [lia|].
      assert (InL : forall v, v < n02 -> In (pos12 n0 v) L /\ idx n (pos12 n0 v) = v).
      { intros v Hv. destruct (idx_pos n v Hv) as [A B]. split; [|exact B]. apply (Permutation_in _ (Permutation_sym HP)). exact A. }
      assert (RG : forall v, v < n02 -> 1 <= nth v s12 0 <= name).
      { intros v Hv. destruct (InL v Hv) as [A B]. specialize (I5 _ A). rewrite B in I5. assumption. }
      assert (H02 : 0 < n02). { pose proof (nfacts n). unfold n02, n0, n2. lia. }
      split; [specialize (RG 0 H02); lia|]. split; [assumption|]. split; [assumption|]. split; [|split].
      + intros v w Hv Hw H. destruct (InL v Hv) as [A B], (InL w Hw) as [C D]. apply I6; auto. rewrite B, D. assumption.
      + intros v w Hv Hw H. destruct (InL v Hv) as [A B], (InL w Hw) as [C D]. apply I7; auto. rewrite B, D. assumption.
      + intros H i Hi. apply I8; lia.
  Qed.

  (** order of the recursive string = order of the sampled suffixes *)
  Lemma f_zero : forall i, (f i = 0 /\ n <= i) \/ (0 < f i /\ i < n).
  Proof. intros i. destruct HB as [B1 B2]. destruct (lt_dec i n); [right|left]; split; auto; [apply B2|]; lia. Qed.

  Lemma teq_zero : forall p q, teq p q -> n <= p + 2 -> p <= n -> q <= n -> p = q.
  Proof.
    intros p q [A [B C]] H1 H2 H3.
    pose proof (f_zero p). pose proof (f_zero (S p)). pose proof (f_zero (S (S p))).
    pose proof (f_zero q). pose proof (f_zero (S q)). pose proof (f_zero (S (S q))). unfold f in *. lia.
  Qed.

  Lemma pos_S : forall v, S v <> n0 -> pos12 n0 (S v) = pos12 n0 v + 3.
  Proof.
    intros v H. unfold pos12. destruct (Nat.ltb_spec v n0); destruct (Nat.ltb_spec (S v) n0); lia.
  Qed.

  Lemma pos_n0 : forall v, S v = n0 -> n <= pos12 n0 v + 2.
  Proof.
    intros v H. unfold pos12. assert (E : v <? n0 = true) by (apply Nat.ltb_lt; lia). rewrite E.
    pose proof (nfacts n) as N. fold n0 n1 n2 in N. lia.
  Qed.

  Lemma pos_n02 : forall v, S v = n02 -> S v <> n0 -> n <= pos12 n0 v + 3.
  Proof.
    intros v H H1. unfold pos12. unfold n02 in H. assert (E : v <? n0 = false) by (apply Nat.ltb_ge; lia). rewrite E.
    pose proof (nfacts n) as N. fold n0 n1 n2 in N. lia.
  Qed.

  Lemma pos_le : forall v, v < n02 -> pos12 n0 v <= n.
  Proof. intros v H. apply P12_le. apply idx_pos. exact H. Qed.

  Lemma pos_inj : forall v w, v < n02 -> w < n02 -> pos12 n0 v = pos12 n0 w -> v = w.
  Proof.
    intros v w Hv Hw E. destruct (idx_pos n v Hv) as [_ A]. destruct (idx_pos n w Hw) as [_ B].
    fold n0 in A, B. rewrite <- A, <- B, E. reflexivity.
  Qed.

  Lemma name_order : forall g, bounded_seq g n02 ->
    (forall v w, v < n02 -> w < n02 -> g v < g w -> tlt (pos12 n0 v) (pos12 n0 w)) ->
    (forall v w, v < n02 -> w < n02 -> g v = g w -> teq (pos12 n0 v) (pos12 n0 w)) ->
    forall v w, v < n02 -> w < n02 -> slt g v w -> slt f (pos12 n0 v) (pos12 n0 w).
  Proof.
    intros g [G1 G2] GA GB v w Hv Hw [k [A B]]. revert v w Hv Hw A B.
    induction k as [|k IH]; intros v w Hv Hw A B.
    - rewrite !Nat.add_0_r in B. apply tlt_slt. apply GA; auto.
    - assert (TE : teq (pos12 n0 v) (pos12 n0 w)).
      { apply GB; auto. specialize (A 0). rewrite !Nat.add_0_r in A. apply A. lia. }
      assert (NE : v <> w) by (intros ->; lia).
      pose proof (pos_le v Hv) as Pv. pose proof (pos_le w Hw) as Pw.
      assert (NP : pos12 n0 v <> pos12 n0 w) by (intros E; apply NE, pos_inj; auto).
      assert (Nv : S v <> n0).
      { intros E. apply NP. apply teq_zero; auto. apply pos_n0. assumption. }
      assert (Nw : S w <> n0).
      { intros E. apply NP. symmetry. apply teq_zero; auto; [|apply pos_n0; assumption].
        destruct TE as [T1 [T2 T3]]. repeat split; auto. }
      apply teq_slt; [assumption|].
      assert (A' : forall l, l < k -> g (S v + l) = g (S w + l)).
      { intros l Hl. specialize (A (S l)). rewrite !Nat.add_succ_r in A. simpl. apply A. lia. }
      assert (B' : g (S v + k) < g (S w + k)) by (rewrite !Nat.add_succ_r in B; assumption).
      destruct (Nat.eq_dec (S v) n02) as [Ev|Ev].
      + (* v is the last name *)
        assert (Hw' : S w < n02) by lia.
        pose proof (pos_n02 v Ev Nv) as Z.
        assert (f (pos12 n0 v + 3) = 0) by (apply HB; lia).
        rewrite <- (pos_S w Nw) in *.
        assert (0 < f (pos12 n0 (S w))).
        { destruct (f_zero (pos12 n0 (S w))) as [[F1 F2]|[F1 F2]]; auto. exfalso.
          assert (Pw' : pos12 n0 (S w) <= n) by (apply pos_le; assumption).
          rewrite (pos_S w Nw) in *. apply NP. apply teq_zero; auto. lia. }
        apply slt_lt. lia.
      + destruct (Nat.eq_dec (S w) n02) as [Ew|Ew].
        * exfalso. rewrite (G2 (S w + k)) in B' by lia. lia.
        * rewrite <- !pos_S by assumption. apply IH; auto; lia.
  Qed.


  (** the comparison made by the merge *)
  Lemma merge_test_spec : forall s12 v j, length s12 = n02 + 3 ->
    (forall x y, x < n02 -> y < n02 -> nth x s12 0 < nth y s12 0 -> slt f (pos12 n0 x) (pos12 n0 y)) ->
    (forall x y, x < n02 -> y < n02 -> nth x s12 0 = nth y s12 0 -> x = y) ->
    (forall x, x < n02 -> 1 <= nth x s12 0) -> (forall x, n02 <= x -> nth x s12 0 = 0) ->
    v < n02 -> pos12 n0 v < n -> j < n -> j mod 3 = 0 ->
    exists b : bool, merge_test s s12 n0 v j = Ok b /\ if b then slt f (pos12 n0 v) j else slt f j (pos12 n0 v).
  Proof.
    intros s12 v j L12 R1 R2 R3 R4 Hv Hpv Hj Hm.
    pose proof (nfacts n) as N. fold n0 n1 n2 in N. pose proof (mod3 j) as [Mj _]. rewrite Hm in Mj.
    set (u := j / 3) in *. assert (Hu : u < n0) by lia.
    assert (Pu : pos12 n0 u = j + 1).
    { unfold pos12. destruct (Nat.ltb_spec u n0); lia. }
    assert (Pun : pos12 n0 (u + n0) = j + 2).
    { unfold pos12. destruct (Nat.ltb_spec (u + n0) n0); lia. }
    unfold merge_test. fold u. clearbody u. set (i := pos12 n0 v) in *. unfold n02 in *.
    destruct (Nat.ltb_spec v n0) as [Hlt|Hge].
    - assert (Ei : i = v * 3 + 1). { unfold i, pos12. destruct (Nat.ltb_spec v n0); lia. }
      rewrite (aget_nth s i) by lia. cbn [bind]. rewrite (aget_nth s12) by lia. cbn [bind].
      rewrite (aget_nth s j) by lia. cbn [bind]. rewrite (aget_nth s12) by lia. cbn [bind].
      fold (fs i) (fs j). set (a := nth (v + n0) s12 0). set (b := nth u s12 0).
      assert (TIE : fs i = fs j -> (a < b /\ slt f (S i) (S j)) \/ (b < a /\ slt f (S j) (S i))).
      { intros E. destruct (lt_dec (v + n0) (n0 + n2)) as [H|H].
        - assert (Pv : pos12 n0 (v + n0) = S i). { unfold pos12. destruct (Nat.ltb_spec (v + n0) n0); lia. }
          rewrite <- Pv. replace (S j) with (pos12 n0 u) by lia.
          destruct (lt_eq_lt_dec a b) as [[C|C]|C].
          + left. split; auto. apply R1; auto; lia.
          + exfalso. apply R2 in C; lia.
          + right. split; auto. apply R1; auto; lia.
        - left. assert (a = 0) by (apply R4; lia). assert (1 <= b) by (apply R3; lia). split; [lia|].
          apply slt_lt. pose proof (f_zero (S i)). pose proof (f_zero (S j)). lia. }
      exists (nats_leb [fs i; a] [fs j; b]). split; [reflexivity|]. simpl.
      destruct (Nat.ltb_spec (fs i) (fs j)) as [C|C]; [apply slt_lt; assumption|].
      destruct (Nat.eqb_spec (fs i) (fs j)) as [C1|C1]; [|apply slt_lt; unfold f; lia].
      destruct (TIE C1) as [[T1 T2]|[T1 T2]].
      + assert (Q : a <? b = true) by (apply Nat.ltb_lt; lia). rewrite Q. apply slt_eq; auto.
      + assert (Q : a <? b = false) by (apply Nat.ltb_ge; lia). assert (Q1 : a =? b = false) by (apply Nat.eqb_neq; lia).
        rewrite Q, Q1. apply slt_eq; auto.
    - assert (Ei : i = (v - n0) * 3 + 2). { unfold i, pos12. destruct (Nat.ltb_spec v n0); lia. }
      rewrite (aget_nth s i) by lia. cbn [bind]. rewrite (aget_nth s (i + 1)) by lia. cbn [bind]. rewrite (aget_nth s12) by lia. cbn [bind].
      rewrite (aget_nth s j) by lia. cbn [bind]. rewrite (aget_nth s (j + 1)) by lia. cbn [bind]. rewrite (aget_nth s12) by lia. cbn [bind].
      fold (fs i) (fs j) (fs (i + 1)) (fs (j + 1)). set (a := nth (v - n0 + 1) s12 0). set (b := nth (u + n0) s12 0).
      assert (TIE : fs (i + 1) = fs (j + 1) -> (a < b /\ slt f (S (S i)) (S (S j))) \/ (b < a /\ slt f (S (S j)) (S (S i)))).
      { intros E. pose proof (f_zero (i + 1)) as Z1. pose proof (f_zero (j + 1)) as Z2. unfold f in Z1, Z2.
        assert (H1 : i + 1 < n) by lia. assert (H2 : j + 1 < n) by lia.
        assert (Pv : pos12 n0 (v - n0 + 1) = S (S i)). { unfold pos12. destruct (Nat.ltb_spec (v - n0 + 1) n0); lia. }
        destruct (lt_dec (u + n0) (n0 + n2)) as [H|H].
        - rewrite <- Pv. replace (S (S j)) with (pos12 n0 (u + n0)) by lia.
          destruct (lt_eq_lt_dec a b) as [[C|C]|C].
          + left. split; auto. apply R1; auto; lia.
          + exfalso. apply R2 in C; lia.
          + right. split; auto. apply R1; auto; lia.
        - right. assert (b = 0) by (apply R4; lia). assert (1 <= a) by (apply R3; lia). split; [lia|].
          apply slt_lt. pose proof (f_zero (S (S i))). pose proof (f_zero (S (S j))). lia. }
      exists (nats_leb [fs i; fs (i + 1); a] [fs j; fs (j + 1); b]). split; [reflexivity|]. simpl.
      destruct (Nat.ltb_spec (fs i) (fs j)) as [C|C]; [apply slt_lt; assumption|].
      destruct (Nat.eqb_spec (fs i) (fs j)) as [C1|C1]; [|apply slt_lt; unfold f; lia].
      rewrite !Nat.add_1_r in *.
      destruct (Nat.ltb_spec (fs (S i)) (fs (S j))) as [D|D]; [apply slt_eq; auto; apply slt_lt; assumption|].
      destruct (Nat.eqb_spec (fs (S i)) (fs (S j))) as [D1|D1]; [|apply slt_eq; auto; apply slt_lt; unfold f; lia].
      destruct (TIE D1) as [[T1 T2]|[T1 T2]].
      + assert (Q : a <? b = true) by (apply Nat.ltb_lt; lia). rewrite Q. apply slt_eq; auto. apply slt_eq; auto.
      + assert (Q : a <? b = false) by (apply Nat.ltb_ge; lia). assert (Q1 : a =? b = false) by (apply Nat.eqb_neq; lia).
        rewrite Q, Q1. apply slt_eq; auto. apply slt_eq; auto.
  Qed.


  Lemma filter_lt_seq : forall a b, filter (fun x => x <? a) (seq 0 (a + b)) = seq 0 a.
  Proof.
    intros a b. rewrite seq_app, filter_app. rewrite filter_all, filter_none; [apply app_nil_r| |];
      intros x Hx; apply in_seq in Hx; [apply Nat.ltb_ge|apply Nat.ltb_lt]; lia.
  Qed.

  Lemma Permutation_filter : forall (h : nat -> bool) l l', Permutation l l' -> Permutation (filter h l) (filter h l').
  Proof.
    induction 1; simpl; auto.
    - destruct (h x); auto.
    - destruct (h y), (h x); auto. apply perm_swap.
    - eapply Permutation_trans; eauto.
  Qed.

  Lemma s0_loop : forall l M S0, length M + length (filter (fun x => x <? n0) l) <= length S0 ->
    foldM (fun '(s0, j) x => if x <? n0 then s0' <- aset s0 j (3 * x) ;; Ok (s0', j + 1) else Ok (s0, j)) l
      (M ++ skipn (length M) S0, length M) =
    let R := M ++ map (fun x => 3 * x) (filter (fun x => x <? n0) l) in Ok (R ++ skipn (length R) S0, length R).
  Proof.
    induction l as [|x l IH]; intros M S0 H; cbn [foldM filter map] in *.
    - rewrite app_nil_r. reflexivity.
    - destruct (x <? n0).
      + cbn [length] in H. rewrite aset_snoc by lia. cbn [bind].
        replace (length M + 1) with (length (M ++ [3 * x])) by (rewrite app_length; reflexivity).
        rewrite IH by (rewrite app_length; simpl; lia). cbn [map]. rewrite <- !app_assoc. reflexivity.
      + cbn [bind]. apply IH. assumption.
  Qed.

  Lemma finish : forall s12 SA12 S0, n <= length S0 -> n02 <= length SA12 ->
    let L12 := firstn n02 SA12 in
    Permutation L12 (seq 0 n02) ->
    StronglySorted (fun v w => slt f (pos12 n0 v) (pos12 n0 w)) L12 ->
    length s12 = n02 + 3 ->
    (forall i, i < n02 -> nth (nth i L12 0) s12 0 = S i) ->
    (forall j, n02 <= j -> nth j s12 0 = 0) ->
    exists L,
      ('(s0, _) <- foldM (fun '(s0, j) x =>
                         if x <? n0 then s0' <- aset s0 j (3 * x) ;; Ok (s0', j + 1)
                         else Ok (s0, j))
                      (firstn n02 SA12) (repeat 0 n0, 0) ;;
       SA0 <- radixPass s0 (repeat 0 n0) s n0 K ;;
       merge_loop n s s12 SA12 SA0 n n0 n02 0 (n0 - n1) 0 S0) = Ok (L ++ skipn n S0) /\
      Permutation L (seq 0 n) /\ StronglySorted (slt f) L.
  Proof.
    intros s12 SA12 S0 HS0 HSA L12 HP HS Ls12 RK RZ. fold L12.
    pose proof (nfacts n) as N. fold n0 n1 n2 in N.
    assert (LL : length L12 = n02) by (rewrite (Permutation_length HP), seq_length; reflexivity).
    set (F := filter (fun x => x <? n0) L12).
    assert (PF : Permutation F (seq 0 n0)).
    { unfold F. rewrite (Permutation_filter _ _ _ HP). unfold n02. rewrite filter_lt_seq. reflexivity. }
    assert (LF : length F = n0) by (rewrite (Permutation_length PF), seq_length; reflexivity).
    pose proof (s0_loop L12 [] (repeat 0 n0)) as S0L. cbn [length app skipn] in S0L. rewrite S0L
      by (fold F; rewrite LF, repeat_length; lia). clear S0L. fold F. set (s0 := map (fun x => 3 * x) F).
    assert (Ls0 : length s0 = n0) by (unfold s0; rewrite map_length; assumption).
    cbn [bind]. rewrite Ls0. rewrite skipn_all2 by (rewrite repeat_length; lia). rewrite app_nil_r.
    assert (Hs0 : forall x, In x s0 -> x < n /\ x mod 3 = 0).
    { intros x Hx. unfold s0 in Hx. apply in_map_iff in Hx as [y [<- Hy]]. apply (Permutation_in _ PF) in Hy.
      apply in_seq in Hy. split; [lia|]. rewrite Nat.mul_comm. apply Nat.mod_mul. lia. }
    rewrite radixPass_spec; [|lia|rewrite repeat_length; lia|].
    2:{ intros x Hx. rewrite firstn_all2 in Hx by lia. apply Hs0 in Hx. split; [lia|]. apply HK. }
    rewrite (firstn_all2 s0) by lia. cbn [bind]. rewrite skipn_all2 by (rewrite repeat_length; lia). rewrite app_nil_r.
    change (fun x => nth x s 0) with fs. set (SA0 := keyed_sort fs K s0).
    assert (P0 : Permutation SA0 s0) by (apply keyed_sort_perm; intros; apply HK).
    assert (L0 : length SA0 = n0) by (rewrite (Permutation_length P0); assumption).
    assert (SS0 : StronglySorted (slt f) SA0).
    { assert (Q : StronglySorted (fun a b => slt f (S a) (S b)) s0).
      { unfold s0. apply StronglySorted_map.
        apply StronglySorted_impl with (R := fun v w => slt f (pos12 n0 v) (pos12 n0 w)); [|apply StronglySorted_filter; exact HS].
        intros a b Ha Hb H. unfold F in Ha, Hb. apply filter_In in Ha as [_ Ha]. apply filter_In in Hb as [_ Hb].
        unfold pos12 in H. rewrite Ha, Hb in H. replace (S (3 * a)) with (a * 3 + 1) by lia.
        replace (S (3 * b)) with (b * 3 + 1) by lia. assumption. }
      apply (keyed_sort_sorted fs K) in Q. fold SA0 in Q. eapply StronglySorted_impl; [|exact Q].
      intros a b _ _ [H|[H1 H2]]; [apply slt_lt|apply slt_eq]; assumption. }
    (* ranks *)
    assert (Lt : forall v, In v L12 -> v < n02).
    { intros v Hv. apply (Permutation_in _ HP) in Hv. apply in_seq in Hv. lia. }
    assert (FIND : forall v, v < n02 -> exists i, i < n02 /\ nth i L12 0 = v).
    { intros v Hv. assert (I : In v L12) by (apply (Permutation_in _ (Permutation_sym HP)); apply in_seq; lia).
      destruct (In_nth _ _ 0 I) as [i [Hi E]]. exists i. split; [lia|assumption]. }
    assert (R1 : forall x y, x < n02 -> y < n02 -> nth x s12 0 < nth y s12 0 -> slt f (pos12 n0 x) (pos12 n0 y)).
    { intros x y Hx Hy H. destruct (FIND x Hx) as [i [Hi <-]]. destruct (FIND y Hy) as [j [Hj <-]].
      rewrite !RK in H by assumption.
      apply (StronglySorted_lt_nth (fun v w => slt f (pos12 n0 v) (pos12 n0 w))); [exact HS|lia|lia]. }
    assert (R2 : forall x y, x < n02 -> y < n02 -> nth x s12 0 = nth y s12 0 -> x = y).
    { intros x y Hx Hy H. destruct (FIND x Hx) as [i [Hi <-]]. destruct (FIND y Hy) as [j [Hj <-]].
      rewrite !RK in H by assumption. f_equal. lia. }
    assert (R3 : forall x, x < n02 -> 1 <= nth x s12 0).
    { intros x Hx. destruct (FIND x Hx) as [i [Hi <-]]. rewrite RK by assumption. lia. }
    (* the first sampled suffix is skipped exactly when it is the empty one *)
    assert (ELT : forall v, In v (skipn (n0 - n1) L12) -> pos12 n0 v < n).
    { intros v Hv. assert (Hv02 : v < n02) by (apply Lt; eapply In_skipn; eauto).
      pose proof (pos_le v Hv02) as PL. destruct (Nat.eq_dec (pos12 n0 v) n) as [E|E]; [exfalso|lia].
      destruct (Nat.eq_dec n0 n1) as [E1|E1].
      - destruct (idx_pos n v Hv02) as [I _]. apply P12_In in I as [I _]. fold n0 n1 in I. lia.
      - replace (n0 - n1) with 1 in Hv by lia. destruct L12 as [|a rest] eqn:EL; [destruct Hv|].
        simpl in Hv. apply StronglySorted_inv in HS as [_ HS]. rewrite Forall_forall in HS. specialize (HS v Hv).
        rewrite E in HS. destruct HS as [k [_ HS]]. assert (f (n + k) = 0) by (apply HB; lia). lia. }
    assert (PALL : Permutation (map (pos12 n0) (skipn (n0 - n1) L12) ++ SA0) (seq 0 n)).
    { apply NoDup_Permutation.
      - apply NoDup_app_iff. split; [|split].
        + apply NoDup_map_inj_in.
          * intros x y Hx Hy. apply pos_inj; apply Lt; eapply In_skipn; eauto.
          * assert (NoDup L12) by (apply (Permutation_NoDup (Permutation_sym HP)), seq_NoDup).
            rewrite <- (firstn_skipn (n0 - n1) L12) in H. apply NoDup_app_iff in H. apply H.
        + apply (Permutation_NoDup (Permutation_sym P0)). unfold s0. apply NoDup_map_inj_in; [intros; lia|].
          apply (Permutation_NoDup (Permutation_sym PF)), seq_NoDup.
        + intros x Hx Hx2. apply in_map_iff in Hx as [v [<- Hv]].
          assert (Hv02 : v < n02) by (apply Lt; eapply In_skipn; eauto).
          destruct (idx_pos n v Hv02) as [I _]. apply P12_In in I as [_ I].
          apply (Permutation_in _ P0) in Hx2. apply Hs0 in Hx2 as [_ Hx2]. fold n0 in I. contradiction.
      - apply seq_NoDup.
      - intros x. rewrite in_seq. rewrite in_app_iff, in_map_iff. split.
        + intros [[v [<- Hv]]|Hx]; [specialize (ELT v Hv); lia|]. apply (Permutation_in _ P0) in Hx. apply Hs0 in Hx. lia.
        + intros [_ Hx]. simpl in Hx. destruct (Nat.eq_dec (x mod 3) 0) as [M|M].
          * right. apply (Permutation_in _ (Permutation_sym P0)). unfold s0. apply in_map_iff. exists (x / 3).
            pose proof (mod3 x). split; [lia|]. apply (Permutation_in _ (Permutation_sym PF)). apply in_seq. lia.
          * left. assert (I : In x (P12 n)) by (apply P12_In; split; [fold n0 n1; lia|assumption]).
            destruct (pos_idx n x I) as [I1 I2]. fold n0 n2 in I1, I2. exists (idx n x). split; [assumption|].
            assert (J : In (idx n x) L12) by (apply (Permutation_in _ (Permutation_sym HP)); apply in_seq; fold n02 in I1; lia).
            destruct (Nat.eq_dec n0 n1) as [E1|E1]; [replace (n0 - n1) with 0 by lia; assumption|].
            replace (n0 - n1) with 1 by lia.
            (* position n is in the sample, and it is the first of L12 *)
            assert (In_n : n0 - 1 < n02) by (unfold n02; lia).
            assert (Pn : pos12 n0 (n0 - 1) = n). { unfold pos12. destruct (Nat.ltb_spec (n0 - 1) n0); lia. }
            assert (J2 : In (n0 - 1) L12) by (apply (Permutation_in _ (Permutation_sym HP)); apply in_seq; lia).
            destruct L12 as [|a rest] eqn:EL; [destruct J|]. simpl.
            apply StronglySorted_inv in HS as [_ HS]. rewrite Forall_forall in HS.
            destruct J2 as [J2|J2].
            { subst a. destruct J as [J|J]; auto. exfalso. rewrite <- J in I2. lia. }
            exfalso. specialize (HS _ J2). rewrite Pn in HS. destruct HS as [k [_ HS]].
            assert (f (n + k) = 0) by (apply HB; lia). lia. }
    destruct (merge_loop_spec s s12 SA12 SA0 S0 n n0 n02 (n0 - n1) (slt f) (slt_trans f) HS0 HSA L0) with (fuel := n) (M := @nil nat) (p := 0) (t := n0 - n1)
      as [L [E [Q1 [Q2 Q3]]]].
    - intros v j Hv Hj. fold L12 in Hv. apply merge_test_spec; auto.
      + apply Lt. eapply In_skipn; eauto.
      + apply (Permutation_in _ P0) in Hj. apply Hs0 in Hj. lia.
      + apply (Permutation_in _ P0) in Hj. apply Hs0 in Hj. lia.
    - lia.
    - unfold n02. lia.
    - lia.
    - simpl. unfold n02. lia.
    - simpl. lia.
    - constructor.
    - fold L12. apply StronglySorted_map. rewrite <- (firstn_skipn (n0 - n1) L12) in HS. apply StronglySorted_app in HS. apply HS.
    - exact SS0.
    - intros a b [].
    - fold L12 in Q1. simpl in E, Q1. exists L. split; [exact E|]. split; [|assumption].
      rewrite Q1. exact PALL.
  Qed.
End Body.

(** ** The two ways of computing the ranks *)
Lemma assign_ranks : forall m L s12, Permutation L (seq 0 m) -> m <= length s12 ->
  exists s12' k, foldM (fun '(s12, i) p => s12' <- aset s12 p (i + 1) ;; Ok (s12', i + 1)) L (s12, 0) = Ok (s12', k) /\
    length s12' = length s12 /\ (forall i, i < m -> nth (nth i L 0) s12' 0 = S i) /\
    (forall j, m <= j -> nth j s12' 0 = nth j s12 0).
Proof.
  intros m L s12 HP Hl.
  assert (LL : length L = m) by (rewrite (Permutation_length HP), seq_length; reflexivity).
  assert (ND : NoDup L) by (apply (Permutation_NoDup (Permutation_sym HP)), seq_NoDup).
  destruct (foldM_inv (fun '(s12, i) p => s12' <- aset s12 p (i + 1) ;; Ok (s12', i + 1))
    (fun pre st => snd st = length pre /\ length (fst st) = length s12 /\
       (forall i, i < length pre -> nth (nth i pre 0) (fst st) 0 = S i) /\
       (forall j, m <= j -> nth j (fst st) 0 = nth j s12 0)) L (s12, 0)) as [[s' k] [E [I1 [I2 [I3 I4]]]]].
  - simpl. repeat split; auto. intros; lia.
  - intros pre x [s' k] [post Ep] [I1 [I2 [I3 I4]]]. simpl in *.
    assert (Hx : x < m).
    { assert (In x (seq 0 m)) by (apply (Permutation_in _ HP); rewrite Ep; apply in_or_app; right; left; reflexivity).
      apply in_seq in H. lia. }
    rewrite aset_ok by lia. simpl. eexists. split; [reflexivity|]. simpl. rewrite app_length, upd_length. simpl.
    split; [lia|]. split; [assumption|]. split.
    + intros i Hi. rewrite nth_upd by lia. destruct (Nat.eq_dec i (length pre)).
      * subst i. rewrite app_nth2, Nat.sub_diag by lia. simpl. rewrite Nat.eqb_refl. lia.
      * rewrite app_nth1 by lia. destruct (x =? nth i pre 0) eqn:D; [|apply I3; lia].
        apply Nat.eqb_eq in D. exfalso. rewrite Ep in ND. apply NoDup_remove_2 in ND. apply ND.
        apply in_or_app. left. rewrite D. apply nth_In. lia.
    + intros j Hj. rewrite nth_upd by lia. destruct (x =? j) eqn:D; [apply Nat.eqb_eq in D; lia|]. auto.
  - simpl in *. exists s', k. rewrite LL in I3. auto.
Qed.

Lemma invert_ranks : forall m s12 SA12 (L : list nat), m <= length SA12 -> m <= length s12 ->
  Permutation L (seq 0 m) -> (forall i, i < m -> nth (nth i L 0) s12 0 = S i) ->
  exists k, foldM (fun '(SA12, i) x => SA12' <- aset SA12 (if x =? 0 then length SA12 - 1 else x - 1) i ;; Ok (SA12', i + 1))
     (firstn m s12) (SA12, 0) = Ok (L ++ skipn m SA12, k).
Proof.
  intros m s12 SA12 L HA Hs HP HR.
  assert (LL : length L = m) by (rewrite (Permutation_length HP), seq_length; reflexivity).
  assert (FIND : forall v, v < m -> exists i, i < m /\ nth i L 0 = v /\ nth v s12 0 = S i).
  { intros v Hv. assert (I : In v L) by (apply (Permutation_in _ (Permutation_sym HP)); apply in_seq; lia).
    destruct (In_nth _ _ 0 I) as [i [Hi E]]. exists i. split; [lia|]. split; [assumption|]. rewrite <- E. apply HR. lia. }
  destruct (foldM_inv (fun '(SA12, i) x => SA12' <- aset SA12 (if x =? 0 then length SA12 - 1 else x - 1) i ;; Ok (SA12', i + 1))
    (fun pre st => snd st = length pre /\ length (fst st) = length SA12 /\
       (forall v, v < length pre -> nth (nth v s12 0 - 1) (fst st) 0 = v) /\
       (forall j, m <= j -> nth j (fst st) 0 = nth j SA12 0)) (firstn m s12) (SA12, 0)) as [[A k] [E [I1 [I2 [I3 I4]]]]].
  - simpl. repeat split; auto. intros; lia.
  - intros pre x [A k] [post Ep] [I1 [I2 [I3 I4]]]. simpl in *.
    assert (Hlp : length pre < m).
    { assert (length (firstn m s12) = m) by (rewrite firstn_length; lia). rewrite Ep, app_length in H. simpl in H. lia. }
    assert (Ex : x = nth (length pre) s12 0).
    { transitivity (nth (length pre) (firstn m s12) 0).
      - rewrite Ep, app_nth2, Nat.sub_diag by lia. reflexivity.
      - rewrite <- (firstn_skipn m s12) at 2. rewrite app_nth1; [reflexivity|]. rewrite firstn_length. lia. }
    destruct (FIND (length pre) Hlp) as [i [Hi [Ei Es]]]. rewrite <- Ex in Es. subst x. rewrite Es.
    assert (Z : S i =? 0 = false) by reflexivity. rewrite Z. replace (S i - 1) with i by lia.
    rewrite aset_ok by lia. simpl. eexists. split; [reflexivity|]. simpl. rewrite app_length, upd_length. simpl.
    split; [lia|]. split; [assumption|]. split.
    + intros v Hv. rewrite nth_upd by lia. destruct (Nat.eq_dec v (length pre)).
      * subst v. rewrite Es. replace (S i - 1) with i by lia. rewrite Nat.eqb_refl. assumption.
      * destruct (FIND v) as [i' [Hi' [Ei' Es']]]; [lia|]. destruct (i =? nth v s12 0 - 1) eqn:D; [|apply I3; lia].
        apply Nat.eqb_eq in D. exfalso. assert (i = i') by lia. subst i'. lia.
    + intros j Hj. rewrite nth_upd by lia. destruct (i =? j) eqn:D; [apply Nat.eqb_eq in D; lia|]. auto.
  - simpl in *. exists k. rewrite E. f_equal. f_equal.
    apply nth_ext with 0 0; [rewrite app_length, skipn_length; lia|].
    rewrite firstn_length in *. intros p Hp. destruct (lt_dec p m) as [H|H].
    + rewrite app_nth1 by lia. assert (Hv : nth p L 0 < m).
      { assert (In (nth p L 0) (seq 0 m)) by (apply (Permutation_in _ HP); apply nth_In; lia). apply in_seq in H0. lia. }
      specialize (HR p H). specialize (I3 (nth p L 0)). rewrite HR in I3. replace (S p - 1) with p in I3 by lia. apply I3. lia.
    + rewrite app_nth2 by lia. rewrite nth_skipn'. rewrite I4 by lia. f_equal. lia.
Qed.

Lemma StronglySorted_of_nth : forall (R : nat -> nat -> Prop) l,
  (forall i j, i < j -> j < length l -> R (nth i l 0) (nth j l 0)) -> StronglySorted R l.
Proof.
  induction l as [|a l IH]; intros H; constructor.
  - apply IH. intros i j Hij Hj. apply (H (S i) (S j)); simpl; lia.
  - rewrite Forall_forall. intros x Hx. destruct (In_nth _ _ 0 Hx) as [i [Hi <-]]. apply (H 0 (S i)); simpl; lia.
Qed.

(** ** Main theorem *)
Theorem dc3_deep : forall fuel s SA n K, 2 <= n -> 0 < fuel -> 2 ^ (fuel - 1) * (n - 2) < 3 ^ (fuel - 1) -> n + 3 <= length s ->
  bounded_seq (fs s) n -> (forall i, fs s i <= K) -> n <= length SA ->
  exists L, dc3 fuel s SA n K = Ok (L ++ skipn n SA) /\ Permutation L (seq 0 n) /\ StronglySorted (slt (fs s)) L.
Proof.
  induction fuel as [|fuel IH]; intros s SA n K Hn Hf Hd Hlen HB HK HSA; [lia|]. clear Hf. rewrite Nat.sub_succ, Nat.sub_0_r in Hd.
  cbn [dc3]. fold (P12 n).
  pose proof (nfacts n) as N. set (n0 := (n + 2) / 3) in *. set (n1 := (n + 1) / 3) in *. set (n2 := n / 3) in *.
  assert (PL : length (P12 n) = n0 + n2) by apply P12_length.
  set (Z := repeat 0 (n0 + n2 + 3)).
  assert (LZ : length Z = n0 + n2 + 3) by apply repeat_length.
  (* radix passes *)
  destruct (pass_spec s n K Hn Hlen HK 2 (P12 n) (repeat 0 3) Z) as [E1 Q1]; [lia|reflexivity|fold n0 n2; lia|].
  fold n0 n2 in E1. rewrite E1. cbn [bind]. set (L1 := keyed_sort (key s 2) K (P12 n)) in *.
  destruct (pass_spec s n K Hn Hlen HK 1 L1 (skipn (n0 + n2) Z) (P12 n ++ repeat 0 3)) as [E2 Q2]; [lia|assumption|rewrite app_length; fold n0 n2; lia|].
  fold n0 n2 in E2. rewrite E2. cbn [bind]. set (L2 := keyed_sort (key s 1) K L1) in *.
  destruct (pass_spec s n K Hn Hlen HK 0 L2 (skipn (n0 + n2) (P12 n ++ repeat 0 3)) (L1 ++ skipn (n0 + n2) Z)) as [E3 Q3]; [lia|assumption| |].
  { rewrite app_length, (Permutation_length Q1). fold n0 n2. lia. }
  fold n0 n2 in E3. simpl (skipn 0 s) in E3. rewrite E3. cbn [bind]. set (L3 := keyed_sort (key s 0) K L2) in *.
  assert (SL3 : StronglySorted (tle s) L3).
  { assert (S0 : StronglySorted (fun _ _ : nat => True) (P12 n)).
    { clear. induction (P12 n); constructor; auto. rewrite Forall_forall. auto. }
    apply (keyed_sort_sorted (key s 2) K) in S0. fold L1 in S0.
    apply (keyed_sort_sorted (key s 1) K) in S0. fold L2 in S0.
    apply (keyed_sort_sorted (key s 0) K) in S0. fold L3 in S0.
    eapply StronglySorted_impl; [|exact S0]. intros a b _ _ H. cbv beta in H; rewrite !key_fs in H. exact H. }
  assert (LL1 : length L1 = n0 + n2) by (rewrite (Permutation_length Q1); assumption).
  assert (LL2 : length L2 = n0 + n2) by (rewrite (Permutation_length Q2); assumption).
  assert (LL3 : length L3 = n0 + n2) by (rewrite (Permutation_length Q3); assumption).
  assert (T3 : skipn (n0 + n2) (P12 n ++ repeat 0 3) = repeat 0 3).
  { rewrite skipn_app, skipn_all2, PL, Nat.sub_diag by lia. reflexivity. }
  rewrite T3. clear T3.
  set (Y := skipn (n0 + n2) (L1 ++ skipn (n0 + n2) Z)).
  (* naming *)
  rewrite (foldM_seq_aget' (name_step' s n) _ (L3 ++ Y)).
  2:{ intros [[name c] s12] i. unfold name_step, name_step', idx. fold n0.
      destruct (aget (L3 ++ Y) i); [|reflexivity]. cbn [bind]. destruct (a mod 3 =? 1); reflexivity. }
  2:{ rewrite app_length. lia. }
  assert (F3 : firstn (n0 + n2) (skipn 0 (L3 ++ Y)) = L3).
  { simpl. rewrite firstn_app, LL3, Nat.sub_diag. simpl. rewrite app_nil_r. apply firstn_all2. lia. }
  rewrite F3.
  destruct (naming_spec s n Hn Hlen L3 (L2 ++ repeat 0 3) Q3 SL3) as [name [c [s12 [E4 [A1 [A2 [A3 [A4 [A5 [A6 [A7 A8]]]]]]]]]]].
  { rewrite app_length, LL2. rewrite repeat_length. reflexivity. }
  fold n0 n2 in A1, A2, A4, A5, A6, A7, A8. rewrite E4. cbn [bind].
  assert (ZE : forall j, n0 + n2 <= j -> nth j s12 0 = 0).
  { intros j Hj. rewrite A4 by assumption. rewrite app_nth2 by lia. apply nth_repeat0. }
  assert (LY : length (L3 ++ Y) = n0 + n2 + 3).
  { rewrite app_length, LL3. unfold Y. rewrite skipn_length, app_length, skipn_length. lia. }
  (* ranks of the sampled suffixes *)
  assert (RANKS : exists L12 s12' SA12',
     (if name <? n0 + n2 then
          SA12 <- dc3 fuel s12 (L3 ++ Y) (n0 + n2) (name + 1) ;;
          '(s12, _) <- foldM (fun '(s12, i) p => s12' <- aset s12 p (i + 1) ;; Ok (s12', i + 1))
                             (firstn (n0 + n2) SA12) (s12, 0) ;;
          Ok (s12, SA12)
        else
          '(SA12, _) <- foldM (fun '(SA12, i) x =>
                                 SA12' <- aset SA12 (if x =? 0 then length SA12 - 1 else x - 1) i ;;
                                 Ok (SA12', i + 1))
                              (firstn (n0 + n2) s12) (L3 ++ Y, 0) ;;
          Ok (s12, SA12)) = Ok (s12', SA12') /\ n0 + n2 <= length SA12' /\ firstn (n0 + n2) SA12' = L12 /\
     Permutation L12 (seq 0 (n0 + n2)) /\
     StronglySorted (fun v w => slt (fs s) (pos12 n0 v) (pos12 n0 w)) L12 /\
     length s12' = n0 + n2 + 3 /\
     (forall i, i < n0 + n2 -> nth (nth i L12 0) s12' 0 = S i) /\
     (forall j, n0 + n2 <= j -> nth j s12' 0 = 0)).
  { destruct (Nat.ltb_spec name (n0 + n2)) as [Hlt|Hge].
    - assert (F1 : 0 < fuel).
      { destruct fuel; [|lia]. cbn in Hd. exfalso. lia. }
      assert (F2 : 2 ^ (fuel - 1) * (n0 + n2 - 2) < 3 ^ (fuel - 1)).
      { destruct fuel as [|d]; [lia|]. rewrite Nat.sub_succ, Nat.sub_0_r. cbn [Nat.pow] in Hd. assert (3 * (n0 + n2 - 2) <= 2 * (n - 2)) by lia. nia. }
      destruct (IH s12 (L3 ++ Y) (n0 + n2) (name + 1)) as [L12 [E5 [P5 S5]]]; try lia; try assumption.
      { split; [intros i Hi; specialize (A5 i Hi); unfold fs; lia|]. intros i Hi. apply ZE. assumption. }
      { intros i. unfold fs. destruct (lt_dec i (n0 + n2)) as [H|H]; [specialize (A5 i H); lia|]. rewrite ZE by lia. lia. }
      rewrite E5. cbn [bind].
      assert (F5 : firstn (n0 + n2) (L12 ++ skipn (n0 + n2) (L3 ++ Y)) = L12).
      { assert (length L12 = n0 + n2) by (rewrite (Permutation_length P5), seq_length; reflexivity).
        rewrite firstn_app, H, Nat.sub_diag. simpl. rewrite app_nil_r. apply firstn_all2. lia. }
      rewrite F5.
      destruct (assign_ranks (n0 + n2) L12 s12 P5) as [s12' [k [E6 [B1 [B2 B3]]]]]; [lia|].
      rewrite E6. cbn [bind]. exists L12, s12', (L12 ++ skipn (n0 + n2) (L3 ++ Y)).
      split; [reflexivity|]. split.
      { rewrite app_length, (Permutation_length P5), seq_length. lia. }
      split; [assumption|]. split; [assumption|]. split; [|split; [lia|split; [assumption|]]].
      + eapply StronglySorted_impl; [|exact S5]. intros v w Hv Hw H.
        apply (Permutation_in _ P5) in Hv, Hw. apply in_seq in Hv, Hw.
        apply (name_order s n Hn Hlen HB) with (g := fs s12); try exact H; try (fold n0 n2; lia).
        * split; [intros i Hi; specialize (A5 i Hi); unfold fs; lia|]. intros i Hi. apply ZE. assumption.
        * exact A6.
        * exact A7.
      + intros j Hj. rewrite B3 by assumption. apply ZE. assumption.
    - assert (EN : name = n0 + n2) by lia. specialize (A8 EN).
      set (L12 := map (idx n) L3).
      assert (P12' : Permutation L12 (seq 0 (n0 + n2))).
      { unfold L12. rewrite Q3. rewrite (P12_perm n). fold n0 n2. rewrite map_map.
        replace (map (fun x => idx n (pos12 n0 x)) (seq 0 (n0 + n2))) with (map (fun x => x) (seq 0 (n0 + n2))); [rewrite map_id; reflexivity|].
        apply map_ext_in. intros v Hv. apply in_seq in Hv. symmetry. apply idx_pos. fold n0 n2. lia. }
      assert (NL : forall i, i < n0 + n2 -> nth i L12 0 = idx n (nth i L3 0)).
      { intros i Hi. unfold L12. rewrite nth_indep with (d' := idx n 0) by (rewrite map_length; lia). apply map_nth. }
      destruct (invert_ranks (n0 + n2) s12 (L3 ++ Y) L12) as [k E5]; try lia.
      { assumption. }
      { intros i Hi. rewrite NL by assumption. apply A8. assumption. }
      rewrite E5. cbn [bind]. exists L12, s12, (L12 ++ skipn (n0 + n2) (L3 ++ Y)).
      assert (LL12 : length L12 = n0 + n2) by (unfold L12; rewrite map_length; assumption).
      split; [reflexivity|]. split; [rewrite app_length; lia|].
      split. { rewrite firstn_app, LL12, Nat.sub_diag. simpl. rewrite app_nil_r. apply firstn_all2. lia. }
      split; [assumption|]. split; [|split; [assumption|split; [|assumption]]].
      + apply StronglySorted_of_nth. intros i j Hij Hj. rewrite LL12 in Hj.
        assert (BD : forall i, i < n0 + n2 -> nth i L12 0 < n0 + n2).
        { intros q Hq. assert (In (nth q L12 0) (seq 0 (n0 + n2))) by (apply (Permutation_in _ P12'); apply nth_In; lia).
          apply in_seq in H. lia. }
        apply (tlt_slt s n Hn Hlen). apply A6; try (apply BD; lia). rewrite !NL, !A8 by lia. lia.
      + intros i Hi. rewrite NL by assumption. apply A8. assumption. }
  destruct RANKS as [L12 [s12' [SA12' [E5 [B1 [B2 [B3 [B4 [B5 [B6 B7]]]]]]]]]].
  rewrite E5. cbn [bind]. subst L12.
  apply (finish s n K Hn Hlen HB HK s12' SA12' SA HSA B1 B3 B4 B5 B6 B7).
Qed.

Lemma growth : forall m, 2 ^ m * (m - 2) < 3 ^ m.
Proof.
  intros m. destruct (le_lt_dec m 4) as [H|H].
  - destruct m as [|[|[|[|[|m]]]]]; cbn; lia.
  - replace m with (4 + (m - 4)) by lia. generalize (m - 4). clear. induction n as [|n IH]; [cbn; lia|].
    replace (4 + S n) with (S (4 + n)) by lia. cbn [Nat.pow]. replace (S (4 + n) - 2) with (3 + n) by lia. replace (4 + n - 2) with (2 + n) in IH by lia. nia.
Qed.
Theorem dc3_spec : forall fuel s SA n K, 2 <= n -> n < fuel -> n + 3 <= length s ->
  bounded_seq (fs s) n -> (forall i, fs s i <= K) -> n <= length SA ->
  exists L, dc3 fuel s SA n K = Ok (L ++ skipn n SA) /\ Permutation L (seq 0 n) /\ StronglySorted (slt (fs s)) L.
Proof.
  intros fuel s SA n K Hn Hf. apply dc3_deep; [assumption|lia|]. pose proof (growth (fuel - 1)) as G.
  assert (n - 2 <= fuel - 1 - 2) by lia. nia.
Qed.
