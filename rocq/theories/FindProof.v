(** Proofs about SuffixArray.find. *)
From Verif Require Import Py Lib SuffixModel SuffixSpec RadixProof DC3Proof SuffixProof.

Lemma nats_leb_refl : forall a, nats_leb a a = true.
Proof. induction a; simpl; auto. rewrite Nat.ltb_irrefl, Nat.eqb_refl. assumption. Qed.

Lemma nats_leb_trans : forall a b c, nats_leb a b = true -> nats_leb b c = true -> nats_leb a c = true.
Proof.
  induction a as [|x a IH]; intros [|y b] [|z c]; simpl; intros H1 H2; auto; try discriminate.
  destruct (Nat.ltb_spec x y); destruct (Nat.ltb_spec y z); destruct (Nat.ltb_spec x z); auto; try lia.
  - destruct (Nat.eqb_spec y z); [|discriminate]. lia.
  - destruct (Nat.eqb_spec x y); [|discriminate]. lia.
  - destruct (Nat.eqb_spec x y); [|discriminate]. destruct (Nat.eqb_spec y z); [|discriminate].
    destruct (Nat.eqb_spec x z); [|lia]. eapply IH; eauto.
Qed.

Lemma nats_leb_antisym : forall a b, nats_leb a b = true -> nats_leb b a = true -> a = b.
Proof.
  induction a as [|x a IH]; intros [|y b]; simpl; intros H1 H2; auto; try discriminate.
  destruct (Nat.ltb_spec x y); destruct (Nat.ltb_spec y x); try lia.
  - destruct (Nat.eqb_spec y x); [lia|discriminate].
  - destruct (Nat.eqb_spec x y); [lia|discriminate].
  - destruct (Nat.eqb_spec x y); [|discriminate]. subst. rewrite Nat.eqb_refl in H2. f_equal. auto.
Qed.

Lemma nats_leb_total : forall a b, nats_leb a b = false -> nats_leb b a = true.
Proof.
  induction a as [|x a IH]; intros [|y b]; simpl; intros H; auto; try discriminate.
  destruct (Nat.ltb_spec x y); [discriminate|]. destruct (Nat.ltb_spec y x); [reflexivity|].
  assert (x = y) by lia. subst. rewrite Nat.eqb_refl in *. auto.
Qed.

Lemma find_lower_spec : forall LCP k lower, lower < length LCP ->
  exists l, find_lower LCP k lower = Ok l /\ l <= lower /\ (forall r, l < r <= lower -> k <= nth r LCP 0) /\
    (l = 0 \/ nth l LCP 0 < k).
Proof.
  induction lower as [|lo IH]; intros H; cbn [find_lower].
  - exists 0. repeat split; auto. lia.
  - rewrite aget_nth by assumption. cbn [bind]. destruct (Nat.leb_spec k (nth (S lo) LCP 0)).
    + destruct IH as [l [E [L1 [L2 L3]]]]; [lia|]. exists l. split; [assumption|]. split; [lia|]. split; [|assumption].
      intros r Hr. destruct (Nat.eq_dec r (S lo)); [subst; assumption|]. apply L2. lia.
    + exists (S lo). split; [reflexivity|]. split; [lia|]. split; [lia|]. right. assumption.
Qed.

Lemma find_upper_spec : forall fuel LCP len k upper, len = length LCP -> upper <= len -> len - upper <= fuel ->
  exists u, find_upper fuel LCP len k upper = Ok u /\ upper <= u <= len /\ (forall r, upper <= r < u -> k <= nth r LCP 0) /\
    (u = len \/ nth u LCP 0 < k).
Proof.
  induction fuel as [|fuel IH]; intros LCP len k upper HL Hu Hf; cbn [find_upper].
  - destruct (Nat.ltb_spec upper len); [lia|]. exists upper. repeat split; auto; try lia.
  - destruct (Nat.ltb_spec upper len).
    + rewrite aget_nth by lia. cbn [bind]. destruct (Nat.leb_spec k (nth upper LCP 0)).
      * destruct (IH LCP len k (upper + 1)) as [u [E [U1 [U2 U3]]]]; try lia. exists u. split; [assumption|].
        split; [lia|]. split; [|assumption]. intros r Hr. destruct (Nat.eq_dec r upper); [subst; assumption|]. apply U2. lia.
      * exists upper. split; [reflexivity|]. split; [lia|]. split; [lia|]. right. assumption.
    + exists upper. repeat split; auto; try lia.
Qed.

Section Find.
  Variables (toks : list str) (sa : suffarr).
  Hypothesis OK : sa_ok toks sa.
  Let n := length toks.
  Let ids := map (ident (sorted_set toks)) toks.
  Definition pref (k r : nat) := slice (map (ident (sorted_set toks)) toks) (SAn sa r) k.

  Lemma ids_F : forall i x, nth_error ids i = Some x -> F toks i = x.
  Proof.
    intros i x H. unfold ids in H. rewrite nth_error_map in H. destruct (nth_error toks i) eqn:E; [|discriminate].
    simpl in H. inversion H. apply F_in. assumption.
  Qed.

  Lemma slt_leb : forall k i j, slt (F toks) i j -> nats_leb (firstn k (skipn i ids)) (firstn k (skipn j ids)) = true.
  Proof.
    assert (LI : length ids = n) by apply map_length.
    induction k as [|k IH]; intros i j H; [reflexivity|].
    destruct (le_lt_dec n i) as [Hi|Hi]; [rewrite (skipn_all2 (n:=i) ids) by lia; reflexivity|].
    destruct (nth_error_lt_ex ids i) as [x Hx]; [lia|].
    pose proof (F_bounded toks) as [B1 B2]. fold n in B1, B2.
    destruct (le_lt_dec n j) as [Hj|Hj].
    { apply slt_inv in H as [H|[H _]]; rewrite (B2 j Hj) in H; specialize (B1 i Hi); lia. }
    destruct (nth_error_lt_ex ids j) as [y Hy]; [lia|].
    rewrite (skipn_nth_error _ _ _ Hx), (skipn_nth_error _ _ _ Hy). cbn [firstn nats_leb].
    apply slt_inv in H. rewrite (ids_F i x Hx), (ids_F j y Hy) in H. destruct H as [H|[H1 H2]].
    - apply Nat.ltb_lt in H. rewrite H. reflexivity.
    - subst y. rewrite Nat.ltb_irrefl, Nat.eqb_refl. apply IH. assumption.
  Qed.

  Lemma pref_mono : forall k r1 r2, r1 <= r2 -> r2 < n -> nats_leb (pref k r1) (pref k r2) = true.
  Proof.
    intros k r1 r2 H1 H2. destruct (Nat.eq_dec r1 r2); [subst; apply nats_leb_refl|].
    unfold pref, slice. apply slt_leb. apply (SAn_sorted toks sa OK); [lia|assumption].
  Qed.

  Lemma find_one_loop_spec : forall sub fuel lower upper, upper <= n -> upper - lower <= fuel ->
    (forall r, r < n -> pref (length sub) r = sub -> lower <= r < upper) ->
    exists o, find_one_loop fuel ids (sa_SA sa) sub lower upper = Ok o /\
      match o with Some m => m < n /\ pref (length sub) m = sub | None => forall r, r < n -> pref (length sub) r <> sub end.
  Proof.
    intros sub. induction fuel as [|fuel IH]; intros lower upper Hu Hf HI; cbn [find_one_loop].
    - destruct (Nat.ltb_spec lower upper); [lia|]. exists None. split; [reflexivity|].
      intros r Hr E. apply HI in E; lia.
    - destruct (Nat.ltb_spec lower upper); [|exists None; split; [reflexivity|]; intros r Hr E; apply HI in E; lia].
      set (m := (lower + upper) / 2).
      assert (Hm : lower <= m < upper).
      { unfold m. split; [apply Nat.div_le_lower_bound; lia|apply Nat.div_lt_upper_bound; lia]. }
      rewrite (aget_SA toks sa OK) by (fold n; lia). cbn [bind].
      change (slice ids (SAn sa m) (length sub)) with (pref (length sub) m).
      destruct (nats_ltb sub (pref (length sub) m)) eqn:E1.
      + apply IH; try lia. intros r Hr E. pose proof (HI r Hr E). split; [lia|].
        destruct (le_lt_dec m r) as [C|C]; [exfalso|assumption].
        pose proof (pref_mono (length sub) m r C Hr) as P. rewrite E in P. unfold nats_ltb in E1. rewrite P in E1. discriminate.
      + destruct (nats_ltb (pref (length sub) m) sub) eqn:E2.
        * apply IH; try lia. intros r Hr E. pose proof (HI r Hr E). split; [|lia].
          destruct (le_lt_dec r m) as [C|C]; [exfalso|lia].
          assert (Hmn : m < n) by lia.
          pose proof (pref_mono (length sub) r m C Hmn) as P. rewrite E in P. unfold nats_ltb in E2. rewrite P in E2. discriminate.
        * exists (Some m). split; [reflexivity|]. split; [lia|]. unfold nats_ltb in *.
          apply negb_false_iff in E1, E2. apply nats_leb_antisym; assumption.
  Qed.

  Lemma map_ident_inj : forall a b, (forall t, In t a -> In t toks) ->
    map (ident (sorted_set toks)) a = map (ident (sorted_set toks)) b -> a = b.
  Proof.
    induction a as [|x a IH]; intros [|y b] H E; try discriminate; auto.
    simpl in E. injection E as E1 E2. f_equal; [apply (ident_inj toks); auto; apply H; left; reflexivity|].
    apply IH; auto. intros t Ht. apply H. right. assumption.
  Qed.

  Lemma In_slice : forall k i t, In t (firstn k (skipn i toks)) -> In t toks.
  Proof.
    intros k i t H. rewrite <- (firstn_skipn i toks). apply in_or_app. right.
    rewrite <- (firstn_skipn k (skipn i toks)). apply in_or_app. left. assumption.
  Qed.

  Lemma mapM_tok_id : forall sub, (forall t, In t sub -> In t toks) ->
    mapM (tok_id (sorted_set toks)) sub = Ok (map (ident (sorted_set toks)) sub).
  Proof. intros sub H. apply mapM_ok. intros x Hx. apply tok_id_ok. apply H. assumption. Qed.

  Lemma mapM_tok_id_fail : forall sub, (exists t, In t sub /\ ~ In t toks) ->
    mapM (tok_id (sorted_set toks)) sub = Raise KeyError.
  Proof.
    induction sub as [|a sub IH]; intros [t [H1 H2]]; [destruct H1|].
    cbn [mapM]. destruct (in_dec str_dec a toks) as [I|I].
    - rewrite tok_id_ok by assumption. cbn [bind]. rewrite IH; [reflexivity|].
      destruct H1 as [->|H1]; [contradiction|]. eauto.
    - unfold tok_id at 1. destruct (index_of a (sorted_set toks)) eqn:E; [|reflexivity].
      exfalso. apply I. apply sorted_set_In. apply index_of_Some in E. eapply nth_error_In; eauto.
  Qed.

  Lemma pref_occurs : forall sub r, r < n -> (forall t, In t sub -> In t toks) ->
    (pref (length sub) r = map (ident (sorted_set toks)) sub <-> occurs_at sub toks (SAn sa r)).
  Proof.
    intros sub r Hr Hsub. unfold pref, slice, occurs_at. rewrite <- skipn_map', firstn_map || rewrite skipn_map, firstn_map.
    split.
    - intros E. split; [apply (SAn_lt toks sa OK); assumption|]. apply map_ident_inj in E; auto. intros t. apply In_slice.
    - intros [_ ->]. reflexivity.
  Qed.

  Theorem find_spec : forall sub, exists l, find sa sub = Ok l /\ NoDup l /\ forall p, In p l <-> occurs_at sub toks p.
  Proof.
    intros sub. unfold find, find_one. rewrite (so_voc _ _ OK).
    assert (D : (forall t, In t sub -> In t toks) \/ exists t, In t sub /\ ~ In t toks).
    { clear. induction sub as [|a sub IH]; [left; intros t []|]. destruct (in_dec str_dec a toks).
      - destruct IH as [H|[t [H1 H2]]]; [left; intros t [<-|Ht]; auto|]. right. exists t. simpl. auto.
      - right. exists a. simpl. auto. }
    destruct D as [D|D].
    2:{ rewrite mapM_tok_id_fail by assumption. cbn [bind]. exists []. split; [reflexivity|]. split; [constructor|].
        intros p. split; [intros []|]. intros [_ H]. destruct D as [t [D1 D2]]. apply D2.
        rewrite <- H in D1. eapply In_slice; eauto. }
    rewrite (mapM_tok_id sub D). set (sids := map (ident (sorted_set toks)) sub).
    assert (LS : length sids = length sub) by apply map_length.
    rewrite (so_string _ _ OK). fold ids.
    assert (LI : length ids = n) by apply map_length. rewrite LI.
    destruct (find_one_loop_spec sids n 0 n) as [o [E HO]]; try lia. rewrite E. cbn [bind].
    assert (OCC : forall r, r < n -> (pref (length sids) r = sids <-> occurs_at sub toks (SAn sa r))).
    { intros r Hr. rewrite LS. apply pref_occurs; assumption. }
    destruct o as [m|].
    2:{ exists []. split; [reflexivity|]. split; [constructor|]. intros p. split; [intros []|].
        intros H. destruct (SAn_onto toks sa OK p) as [r [R1 R2]]; [apply H|]. apply (HO r R1). apply OCC; [assumption|].
        rewrite R2. assumption. }
    destruct HO as [Hm HO]. apply OCC in HO; [|assumption]. rewrite LS.
    assert (LL : length (sa_LCP sa) = n) by apply (LCP_length toks sa OK).
    destruct (find_lower_spec (sa_LCP sa) (length sub) m) as [lo [E1 [L1 [L2 L3]]]]; [lia|]. rewrite E1. cbn [bind].
    destruct (find_upper_spec n (sa_LCP sa) n (length sub) (m + 1)) as [up [E2 [U1 [U2 U3]]]]; try lia. rewrite E2. cbn [bind].
    fold (LCPn sa lo) in L3. fold (LCPn sa up) in U3.
    (* matching ranks are exactly the interval *)
    assert (KM : SAn sa m + length sub <= n).
    { destruct HO as [H1 H2]. apply (f_equal (@length str)) in H2. rewrite firstn_length, skipn_length in H2. fold n in H2, H1. lia. }
    assert (ME : forall r, r < n -> r <> m -> (occurs_at sub toks (SAn sa r) <-> agree toks (SAn sa r) (SAn sa m) (length sub))).
    { intros r Hr Hne. destruct HO as [H1 H2]. split.
      - intros [H3 H4]. apply firstn_agree; fold n; auto.
        + apply (f_equal (@length str)) in H4. rewrite firstn_length, skipn_length in H4. fold n in H3, H4. lia.
        + congruence.
      - intros A. split; [apply (SAn_lt toks sa OK); assumption|]. rewrite <- H2 at 2.
        destruct (agree_bound toks (SAn sa r) (SAn sa m) (length sub)) as [B1 B2]; auto.
        + intros Q. apply Hne. apply (SAn_inj toks sa OK); assumption.
        + pose proof (SAn_lt toks sa OK r Hr). lia.
        + fold n. lia.
        + apply agree_firstn; assumption. }
    assert (INT : forall r, r < n -> (occurs_at sub toks (SAn sa r) <-> lo <= r < up)).
    { intros r Hr. destruct (lt_eq_lt_dec r m) as [[C|C]|C].
      - rewrite (ME r Hr) by lia. rewrite (LCP_range toks sa OK) by (fold n; lia). split.
        + intros Q. split; [|lia]. destruct (le_lt_dec lo r) as [X|X]; [assumption|exfalso].
          destruct L3 as [L3|L3]; [lia|]. specialize (Q lo). lia.
        + intros [Q1 Q2] q Hq. apply L2. lia.
      - subst. split; [lia|]. intros _. assumption.
      - rewrite (ME r Hr) by lia.
        assert (SY : agree toks (SAn sa r) (SAn sa m) (length sub) <-> agree toks (SAn sa m) (SAn sa r) (length sub)).
        { split; intros A q Hq; symmetry; apply A; assumption. }
        rewrite SY, (LCP_range toks sa OK) by (fold n; lia). split.
        + intros Q. split; [lia|]. destruct (le_lt_dec up r) as [X|X]; [exfalso|assumption].
          destruct U3 as [U3|U3]; [lia|]. specialize (Q up). lia.
        + intros [Q1 Q2] q Hq. apply U2. lia. }
    exists (slice (sa_SA sa) lo (up - lo)). split; [reflexivity|].
    assert (ND : NoDup (sa_SA sa)) by (apply (Permutation_NoDup (Permutation_sym (so_perm _ _ OK))), seq_NoDup).
    split.
    - unfold slice. rewrite <- (firstn_skipn lo (sa_SA sa)) in ND. apply NoDup_app_iff in ND as [_ [ND _]].
      rewrite <- (firstn_skipn (up - lo) (skipn lo (sa_SA sa))) in ND. apply NoDup_app_iff in ND. apply ND.
    - intros p. split.
      + intros H. unfold slice in H. destruct (In_nth_error _ _ H) as [q Hq]. rewrite nth_error_firstn in Hq.
        destruct (Nat.ltb_spec q (up - lo)); [|discriminate]. rewrite nth_error_skipn in Hq.
        assert (EQ : SAn sa (lo + q) = p) by (apply nth_error_nth; assumption). rewrite <- EQ. apply INT; lia.
      + intros H. destruct (SAn_onto toks sa OK p) as [r [R1 R2]]; [apply H|]. rewrite <- R2 in H. apply INT in H; [|assumption].
        unfold slice. apply nth_error_In with (n := r - lo). rewrite nth_error_firstn.
        destruct (Nat.ltb_spec (r - lo) (up - lo)); [|lia]. rewrite nth_error_skipn. replace (lo + (r - lo)) with r by lia.
        rewrite <- R2. apply nth_error_nth'. rewrite (SA_length toks sa OK). assumption.
  Qed.
End Find.
