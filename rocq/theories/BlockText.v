(** Blocks and the text they stand for. *)
From Verif Require Import Py Lib TokenModel SuffixModel IndexModel SuffixSpec RadixProof DC3Proof
  BlockProof SuffixProof IndexProof.
From Coq Require Import Permutation Sorted.

(** The token strings of the token array. *)
Definition text (ti : tindex) : list str := map tk_str (ti_array ti).

Definition index_text_ok (ti : tindex) : Prop :=
  (length (text ti) = 1 /\ ti_blocks ti = []) \/
  (length (text ti) <> 1 /\ exists sa, sa_ok (text ti) sa /\ ti_sa ti = sa_SA sa /\ ti_lcp ti = sa_LCP sa /\
     split_lcp (sa_LCP sa) = Ok (ti_blocks ti)).

Lemma prepare_text_ok : forall c ti, prepare c = Ok ti -> index_text_ok ti.
Proof.
  intros c ti H. unfold prepare in H. apply bind_ok in H as [[[r a] o] [H1 H]].
  apply bind_ok in H as [sa [E1 H]]. apply bind_ok in H as [bs [E2 H]]. apply bind_ok in H as [inst [E3 H]].
  injection H as <-. unfold index_text_ok, text. cbn [ti_array ti_blocks ti_sa ti_lcp].
  destruct (Nat.eq_dec (length (map tk_str a)) 1) as [L|L].
  - left. split; auto. destruct (map tk_str a) as [|t [|? ?]]; try discriminate. rewrite suffix_array_one in E1.
    injection E1 as <-. cbn in E2. injection E2 as <-. reflexivity.
  - right. split; auto. exists sa. destruct (suffix_array_ok _ L) as [sa' [E OK]]. rewrite E in E1. injection E1 as <-. auto.
Qed.

Section Blocks.
  Variable ti : tindex.
  Hypothesis OK : index_text_ok ti.
  Let T := text ti.
  Let n := length T.

  (** The instances of a block: consecutive rows of the suffix array, sharing [b_len]
      tokens and no more. *)
  Lemma block_inst : forall b, In b (ti_blocks ti) -> exists sa, sa_ok T sa /\ ti_sa ti = sa_SA sa /\
    split_lcp (sa_LCP sa) = Ok (ti_blocks ti) /\ block_ok (sa_LCP sa) b /\ b_end b < n /\
    block_instances (ti_sa ti) b = Ok (map (SAn sa) (seq (b_start b) (b_end b + 1 - b_start b))).
  Proof.
    intros b Hb. destruct OK as [[_ E]|[L [sa [S1 [S2 [_ S3]]]]]]; [rewrite E in Hb; contradiction|].
    exists sa. split; auto. split; auto. split; auto.
    destruct (split_lcp_spec (sa_LCP sa)) as [bs [E1 [E2 _]]]; [apply (LCPn_0 _ _ S1)|].
    rewrite E1 in S3. injection S3 as ->. pose proof (E2 b Hb) as B. split; auto.
    assert (be : b_end b < n). { destruct B as [_ [_ [B _]]]. rewrite (LCP_length _ _ S1) in B. assumption. }
    split; auto. unfold block_instances. apply mapM_ok. intros r Hr. apply in_seq in Hr. rewrite S2.
    apply (aget_SA _ _ S1). fold T n. lia.
  Qed.

  Lemma block_agree : forall b sa r1 r2, sa_ok T sa -> block_ok (sa_LCP sa) b -> b_end b < n ->
    b_start b <= r1 -> r1 < r2 -> r2 <= b_end b -> agree T (SAn sa r1) (SAn sa r2) (b_len b).
  Proof.
    intros b sa r1 r2 S1 B be H1 H2 H3. apply (LCP_range T sa S1 r1 r2 (b_len b)); [assumption|fold n; lia|].
    intros r Hr. destruct B as [_ [_ [_ [[B1 _] _]]]]. apply B1. lia.
  Qed.

  Theorem block_sound : forall b, In b (ti_blocks ti) ->
    exists ps, block_instances (ti_sa ti) b = Ok ps /\ 2 <= length ps /\ NoDup ps /\ 0 < b_len b /\
      length ps = block_frequency b /\
      forall p q, In p ps -> In q ps -> p + b_len b <= n /\
        firstn (b_len b) (skipn p T) = firstn (b_len b) (skipn q T).
  Proof.
    intros b Hb. destruct (block_inst b Hb) as [sa [S1 [S2 [_ [B [be BI]]]]]]. eexists. split; [exact BI|].
    destruct B as [B0 [B1 B2]]. rewrite map_length, seq_length. split; [lia|]. split.
    { apply NoDup_map_inj_in; [|apply seq_NoDup]. intros x y Hx Hy E. apply in_seq in Hx, Hy.
      apply (SAn_inj T sa S1); auto; fold n; lia. }
    split; [assumption|]. split; [unfold block_frequency; lia|].
    assert (G : forall r1 r2, b_start b <= r1 -> r1 < r2 -> r2 <= b_end b ->
       SAn sa r1 + b_len b <= n /\ SAn sa r2 + b_len b <= n /\
       firstn (b_len b) (skipn (SAn sa r1) T) = firstn (b_len b) (skipn (SAn sa r2) T)).
    { intros r1 r2 H1 H2 H3. pose proof (block_agree b sa r1 r2 S1 (conj B0 (conj B1 B2)) be H1 H2 H3) as A.
      assert (NE : SAn sa r1 <> SAn sa r2) by (intro E; apply (SAn_inj T sa S1) in E; fold n; lia).
      assert (L1 : SAn sa r1 < n) by (apply (SAn_lt T sa S1); fold n; lia). assert (L2 : SAn sa r2 < n) by (apply (SAn_lt T sa S1); fold n; lia).
      destruct (agree_bound T _ _ (b_len b) NE) as [C1 C2]; [fold n; lia|fold n; lia|assumption|].
      split; [exact C1|]. split; [exact C2|]. apply agree_firstn; assumption. }
    intros p q Hp Hq. apply in_map_iff in Hp as [r1 [<- H1]]. apply in_map_iff in Hq as [r2 [<- H2]].
    apply in_seq in H1, H2. split.
    - destruct (Nat.eq_dec r1 (b_end b)) as [N1|N1]; [rewrite N1|].
      + apply (G (b_start b) (b_end b)); lia.
      + apply (G r1 (b_end b)); lia.
    - destruct (lt_eq_lt_dec r1 r2) as [[H|H]|H]; [apply G; lia|rewrite H; reflexivity|symmetry; apply G; lia].
  Qed.

  (** Two instances of a block do not all go on with the same token. *)
  Theorem block_maximal : forall b, In b (ti_blocks ti) ->
    exists ps p q, block_instances (ti_sa ti) b = Ok ps /\ In p ps /\ In q ps /\
      is_lcp (skipn p T) (skipn q T) (b_len b).
  Proof.
    intros b Hb. destruct (block_inst b Hb) as [sa [S1 [S2 [_ [B [be BI]]]]]].
    pose proof B as [B0 [B1 [B2 [[B3 [r [Hr B4]]] _]]]].
    assert (Hr' : exists r', r = S r') by (exists (r - 1); lia). destruct Hr' as [r' ->].
    exists (map (SAn sa) (seq (b_start b) (b_end b + 1 - b_start b))), (SAn sa r'), (SAn sa (S r')).
    split; [exact BI|]. split; [apply in_map; apply in_seq; lia|]. split; [apply in_map; apply in_seq; lia|].
    destruct (LCPn_spec T sa S1 r') as [A A']; [fold n; lia|]. unfold LCPn in A, A'. rewrite B4 in A, A'.
    assert (NE : SAn sa r' <> SAn sa (S r')) by (intro E; apply (SAn_inj T sa S1) in E; fold n; lia).
    assert (L1 : SAn sa r' < n) by (apply (SAn_lt T sa S1); fold n; lia). assert (L2 : SAn sa (S r') < n) by (apply (SAn_lt T sa S1); fold n; lia).
    destruct (agree_bound T _ _ (b_len b) NE) as [C1 C2]; [fold n; lia|fold n; lia|assumption|].
    repeat split.
    - apply agree_firstn; assumption.
    - rewrite skipn_length. fold n in C1 |- *. lia.
    - rewrite skipn_length. fold n in C2 |- *. lia.
    - intros x y Hx Hy. rewrite nth_error_skipn in Hx, Hy. intros ->.
      apply A'. rewrite (F_in _ _ _ Hx), (F_in _ _ _ Hy). reflexivity.
  Qed.

  Theorem block_complete : forall p q k, p <> q -> 0 < k -> is_lcp (skipn p T) (skipn q T) k ->
    exists b ps, In b (ti_blocks ti) /\ b_len b = k /\ block_instances (ti_sa ti) b = Ok ps /\ In p ps /\ In q ps.
  Proof.
    assert (G : forall sa r1 r2 k, sa_ok T sa -> ti_sa ti = sa_SA sa -> split_lcp (sa_LCP sa) = Ok (ti_blocks ti) ->
      r1 < r2 -> r2 < n -> 0 < k -> is_lcp (skipn (SAn sa r1) T) (skipn (SAn sa r2) T) k ->
      exists b, In b (ti_blocks ti) /\ b_len b = k /\ b_start b <= r1 /\ r2 <= b_end b).
    { intros sa r1 r2 k S1 S2 S3 H1 H2 Hk [I1 [I2 [I3 I4]]].
      destruct (split_lcp_spec (sa_LCP sa)) as [bs [E1 [_ E2]]]; [apply (LCPn_0 _ _ S1)|].
      rewrite E1 in S3. injection S3 as ->.
      rewrite skipn_length in I2, I3. fold n in I2, I3.
      assert (L1 : SAn sa r1 < n) by (apply (SAn_lt T sa S1); fold n; lia). assert (L2 : SAn sa r2 < n) by (apply (SAn_lt T sa S1); fold n; lia). 
      assert (A : agree T (SAn sa r1) (SAn sa r2) k) by (apply firstn_agree; fold n; [lia|lia|assumption]).
      destruct (is_min_ex (sa_LCP sa) r1 r2 H1) as [k' M].
      assert (k <= k').
      { destruct M as [_ [r [R1 R2]]]. rewrite <- R2. apply (proj1 (LCP_range T sa S1 r1 r2 k H1 H2) A). lia. }
      assert (k' <= k).
      { destruct (le_lt_dec k' k) as [|C]; [assumption|exfalso].
        assert (A' : agree T (SAn sa r1) (SAn sa r2) k').
        { apply (LCP_range T sa S1 r1 r2 k' H1 H2). intros r Hr. apply (proj1 M). lia. }
        assert (NE : SAn sa r1 <> SAn sa r2) by (intro E; apply (SAn_inj T sa S1) in E; fold n; lia).
        destruct (agree_bound T _ _ (k') NE) as [C1 C2]; [fold n; lia|fold n; lia|assumption|]. fold n in C1, C2.
        destruct (nth_error_lt_ex T (SAn sa r1 + k)) as [x Hx]; [fold n; lia|].
        destruct (nth_error_lt_ex T (SAn sa r2 + k)) as [y Hy]; [fold n; lia|].
        apply (I4 x y); [rewrite nth_error_skipn; assumption|rewrite nth_error_skipn; assumption|].
        specialize (A' k C). rewrite (F_in _ _ _ Hx), (F_in _ _ _ Hy) in A'.
        apply (ident_inj T) in A'; auto. apply nth_error_In with (SAn sa r1 + k). assumption. }
      assert (k' = k) by lia. subst k'.
      destruct (E2 r1 r2 k H1) as [b [B1 [B2 [B3 B4]]]]; auto.
      { rewrite (LCP_length _ _ S1). fold n. assumption. }
      exists b. auto. }
    intros p q k NE Hk I.
    pose proof I as [_ [I2 [I3 _]]]. rewrite skipn_length in I2, I3. fold n in I2, I3.
    destruct OK as [[L _]|[L [sa [S1 [S2 [_ S3]]]]]]; [fold T in L; fold n in L; lia|].
    destruct (SAn_onto T sa S1 p) as [r1 [R1 <-]]; [fold n; lia|].
    destruct (SAn_onto T sa S1 q) as [r2 [R2 <-]]; [fold n; lia|]. fold n in R1, R2.
    assert (D : exists b, In b (ti_blocks ti) /\ b_len b = k /\ b_start b <= r1 <= b_end b /\ b_start b <= r2 <= b_end b).
    { destruct (lt_eq_lt_dec r1 r2) as [[H|H]|H]; [|congruence|].
      - destruct (G sa r1 r2 k) as [b [B1 [B2 [B3 B4]]]]; auto. exists b. repeat split; auto; lia.
      - destruct (G sa r2 r1 k) as [b [B1 [B2 [B3 B4]]]]; auto.
        + destruct I as [J1 [J2 [J3 J4]]]. repeat split; auto. intros x y Hx Hy E. apply (J4 y x); auto.
        + exists b. repeat split; auto; lia. }
    destruct D as [b [B1 [B2 [B3 B4]]]].
    destruct (block_inst b B1) as [sa' [S1' [S2' [_ [B [be BI]]]]]].
    assert (SS : SAn sa' = SAn sa) by (unfold SAn; rewrite <- S2', <- S2; reflexivity). rewrite SS in BI.
    exists b. eexists. split; [exact B1|]. split; [exact B2|]. split; [exact BI|].
    split; apply in_map; apply in_seq; lia.
  Qed.

  Lemma least_ex : forall (P : nat -> Prop) r, (forall x, {P x} + {~ P x}) -> P r ->
    exists m, P m /\ m <= r /\ forall x, P x -> m <= x.
  Proof.
    intros P r D. induction r as [r IH] using lt_wf_ind. intros H.
    assert (E : (exists x, x < r /\ P x) \/ forall x, x < r -> ~ P x).
    { clear IH H. induction r as [|r [[x [X1 X2]]|N]]; [right; lia|left; exists x; split; [lia|assumption]|].
      destruct (D r) as [Y|Y]; [left; exists r; split; [lia|assumption]|right].
      intros x Hx. destruct (Nat.eq_dec x r); [subst x; assumption|apply N; lia]. }
    destruct E as [[x [X1 X2]]|N].
    - destruct (IH x X1 X2) as [m [M1 [M2 M3]]]. exists m. split; [assumption|]. split; [lia|assumption].
    - exists r. repeat split; auto. intros x Hx. destruct (le_lt_dec r x); [assumption|]. exfalso. eapply N; eauto.
  Qed.

  Lemma greatest_ex : forall (P : nat -> Prop) r bnd, (forall x, {P x} + {~ P x}) -> P r -> (forall x, P x -> x < bnd) ->
    exists m, P m /\ r <= m /\ forall x, P x -> x <= m.
  Proof.
    intros P r bnd D H B.
    destruct (least_ex (fun y => P (bnd - 1 - y) /\ y < bnd) (bnd - 1 - r)) as [m [[M1 M1'] [M2 M3]]].
    - intros x. destruct (D (bnd - 1 - x)); [|right; tauto]. destruct (lt_dec x bnd); [left|right]; tauto.
    - pose proof (B r H). replace (bnd - 1 - (bnd - 1 - r)) with r by lia. split; [assumption|lia].
    - pose proof (B r H). exists (bnd - 1 - m). split; [assumption|]. split; [lia|].
      intros x Hx. pose proof (B x Hx). specialize (M3 (bnd - 1 - x)).
      replace (bnd - 1 - (bnd - 1 - x)) with x in M3 by lia. assert (m <= bnd - 1 - x) by (apply M3; split; [assumption|lia]). lia.
  Qed.

  (** For every block there is one with the same text that has all its occurrences. *)
  Theorem block_all_occurrences : forall b ps p, In b (ti_blocks ti) -> block_instances (ti_sa ti) b = Ok ps -> In p ps ->
    exists b' ps', In b' (ti_blocks ti) /\ b_len b' = b_len b /\ block_instances (ti_sa ti) b' = Ok ps' /\
      (forall q, In q ps' <-> occurs_at (firstn (b_len b) (skipn p T)) T q) /\
      forall q, In q ps -> In q ps'.
  Proof.
    intros b ps p Hb Hps Hp.
    destruct (block_sound b Hb) as [ps0 [E0 [_ [_ [Lb [_ SND]]]]]]. rewrite Hps in E0. injection E0 as <-.
    destruct (block_inst b Hb) as [sa [S1 [S2 [S3 [B [be BI]]]]]]. rewrite Hps in BI. injection BI as BI.
    assert (Lp : p + b_len b <= n) by (apply (SND p p); assumption).
    set (len := b_len b) in *. set (w := firstn len (skipn p T)).
    assert (Lw : length w = len) by (unfold w; rewrite firstn_length, skipn_length; fold n; lia).
    set (P := fun r => r < n /\ occurs_at w T (SAn sa r)).
    assert (DP : forall x, {P x} + {~ P x}).
    { intros x. unfold P, occurs_at. rewrite Lw.
      destruct (lt_dec x n); [|right; tauto]. destruct (lt_dec (SAn sa x) (length T)); [|right; tauto].
      destruct (list_eq_dec str_dec (firstn len (skipn (SAn sa x) T)) w); [left|right]; tauto. }
    assert (PB : forall x, P x -> x < n) by (intros x [H _]; assumption).
    assert (Pin : forall r, b_start b <= r <= b_end b -> P r).
    { intros r Hr. split; [lia|]. assert (I : In (SAn sa r) ps) by (rewrite BI; apply in_map; apply in_seq; lia).
      split; [apply (SAn_lt T sa S1); fold n; lia|]. rewrite Lw. apply (SND (SAn sa r) p I Hp). }
    destruct B as [_ [B1 [B2 [[B3 [rm [Rm B4]]] _]]]].
    destruct (least_ex P (b_start b) DP) as [r1 [R1 [R1' R1m]]]; [apply Pin; lia|].
    destruct (greatest_ex P (b_end b) n DP) as [r2 [R2 [R2' R2m]]]; [apply Pin; lia|assumption|].
    assert (Lt : r1 < r2) by lia. pose proof (PB _ R2) as Lr2.
    assert (OL : forall r, P r -> SAn sa r + len <= n).
    { intros r [Hr [O1 O2]]. rewrite Lw in O2. pose proof (f_equal (@length str) O2) as LL.
      rewrite firstn_length, skipn_length, Lw in LL. fold n in LL, O1. lia. }
    assert (A : agree T (SAn sa r1) (SAn sa r2) len).
    { apply firstn_agree; [apply OL; assumption|apply OL; assumption|].
      destruct R1 as [_ [_ X1]], R2 as [_ [_ X2]]. rewrite Lw in X1, X2. congruence. }
    assert (M : is_min (sa_LCP sa) r1 r2 len).
    { split.
      - apply (proj1 (LCP_range T sa S1 r1 r2 len Lt Lr2) A).
      - exists rm. split; [lia|assumption]. }
    destruct (split_lcp_spec (sa_LCP sa)) as [bs [E1 [_ E2]]]; [apply (LCPn_0 _ _ S1)|].
    rewrite E1 in S3. injection S3 as ->.
    destruct (E2 r1 r2 len Lt) as [b' [C1 [C2 [C3 C4]]]]; auto.
    { rewrite (LCP_length _ _ S1). fold n. assumption. }
    destruct (block_inst b' C1) as [sa' [S1' [S2' [_ [B' [be' BI']]]]]].
    assert (SS : SAn sa' = SAn sa) by (unfold SAn; rewrite <- S2', <- S2; reflexivity). rewrite SS in BI'.
    exists b'. eexists. split; [exact C1|]. split; [exact C4|]. split; [exact BI'|].
    assert (IN : forall q, occurs_at w T q -> In q (map (SAn sa) (seq (b_start b') (b_end b' + 1 - b_start b')))).
    { intros q O. destruct (SAn_onto T sa S1 q) as [r [Hr <-]]; [apply O|].
      assert (Pr : P r) by (split; assumption). apply R1m in Pr as Q1. apply R2m in Pr as Q2.
      apply in_map. apply in_seq. lia. }
    destruct (block_sound b' C1) as [ps0 [E0 [_ [_ [_ [_ SND']]]]]]. rewrite BI' in E0. injection E0 as <-.
    rewrite C4 in SND'.
    assert (OP : forall q, In q ps -> occurs_at w T q).
    { intros q Hq. destruct (SND q p Hq Hp) as [Q1 Q2]. split; [fold n; lia|]. rewrite Lw. assumption. }
    split; [|intros q Hq; apply IN; apply OP; assumption].
    intros q. split; [|apply IN]. intros Hq.
    assert (Hp' : In p (map (SAn sa) (seq (b_start b') (b_end b' + 1 - b_start b')))) by (apply IN; apply OP; assumption).
    destruct (SND' q p Hq Hp') as [Q1 Q2]. split; [fold n; lia|]. rewrite Lw. assumption.
  Qed.
End Blocks.
