(** C65: depth and instances of blocks. *)
From Verif Require Import Py Lib TokenModel SuffixModel IndexModel BlockModel SuffixSpec BlockSpec GraphSpec CollateModel CollateSpec Samples
  BlockProof SuffixProof IndexProof BlockText InstProof CubeProof DC3Proof JoinProof Props_blocks.
From Coq Require Import Sorted.
Open Scope list_scope.
Open Scope nat_scope.

Lemma start_of_begins : forall c k pos, start_of pos c k = pos + begins c k.
Proof.
  induction c as [|w c IH]; intros [|k] pos; cbn [start_of]; try (unfold begins; cbn; lia).
  rewrite IH. unfold begins. cbn [firstn map]. unfold list_sum. cbn [fold_right]. lia.
Qed.

Section Depth.
  Variables (c : collation) (ti : tindex).
  Hypothesis P : prepare c = Ok ti.
  Hypothesis ND : NoDup (map w_sigil c).
  Let IX : index_ok c ti := prepare_index_ok c ti ND P.
  Let TX : index_text_ok ti := prepare_text_ok c ti P.

  Lemma wit_sigil : forall k w, nth_error c k = Some w -> exists iw, nth_error (ti_wits ti) k = Some iw /\ iw_sigil iw = w_sigil w.
  Proof.
    intros k w H. assert (G : forall c1 pos k w, nth_error c1 k = Some w -> exists iw, nth_error (stamped pos c1) k = Some iw /\ iw_sigil iw = w_sigil w).
    { intro c1. induction c1 as [|w0 c1 IH]; intros pos [|k1] w1 H1; try discriminate; cbn in *.
      - injection H1 as <-. eauto.
      - apply IH. assumption. }
    rewrite (ix_wits _ _ IX). apply G. assumption.
  Qed.

  Lemma wit_back : forall k iw, nth_error (ti_wits ti) k = Some iw -> exists w, nth_error c k = Some w /\ iw_sigil iw = w_sigil w.
  Proof.
    intros k iw H. destruct (nth_error c k) as [w|] eqn:E.
    - destruct (wit_sigil k w E) as [iw' [A B]]. exists w. split; [reflexivity|congruence].
    - exfalso. apply nth_error_None in E. assert (k < length (ti_wits ti)) by (apply nth_error_Some; congruence).
      rewrite (wits_length c ti IX) in *. lia.
  Qed.

  (** The siglum at a position is the one of the witness it belongs to. *)
  Lemma sigil_belongs : forall p k w, p < length (ti_array ti) -> nth_error c k = Some w ->
    (token_sigil (ti_array ti) p = Ok (w_sigil w) <-> begins c k <= p < begins c (S k)).
  Proof.
    intros p k w Lp Hk. destruct (wit_sigil k w Hk) as [iw [A B]].
    pose proof (start_of_begins c k 0) as E1. pose proof (start_of_begins c (S k) 0) as E2. cbn [Nat.add] in E1, E2. split.
    - intro H. rewrite <- B in H. pose proof (sigil_owner c ti IX k iw p A H). lia.
    - intro H. destruct (nth_error (ti_array ti) p) as [t|] eqn:Et; [|apply nth_error_None in Et; lia].
      assert (G : exists k' iw', nth_error (ti_wits ti) k' = Some iw' /\ token_sigil (ti_array ti) p = Ok (iw_sigil iw')).
      { destruct (arr_cases c ti IX p t Et) as [[k' [iw' [X [_ [_ Y]]]]]|[k' [iw' [X [_ [_ Y]]]]]]; eauto. }
      destruct G as [k' [iw' [X Y]]]. pose proof (sigil_owner c ti IX k' iw' p X Y) as [O1 O2].
      rewrite !start_of_begins in *. cbn [Nat.add] in *.
      assert (k' = k).
      { destruct (lt_eq_lt_dec k k') as [[L|L]|L]; [|auto|]; exfalso.
        - assert (begins c (S k) <= begins c k'); [|lia]. pose proof (start_of_begins c (S k) 0). pose proof (start_of_begins c k' 0).
          destruct (Nat.eq_dec (S k) k') as [->|NE]; [lia|]. pose proof (start_of_mono c 0 (S k) k' ltac:(lia)).
          assert (k' < length c) by (rewrite <- (wits_length c ti IX); apply nth_error_Some; congruence). lia.
        - assert (begins c (S k') <= begins c k); [|lia]. pose proof (start_of_begins c (S k') 0). pose proof (start_of_begins c k 0).
          destruct (Nat.eq_dec (S k') k) as [->|NE]; [lia|]. pose proof (start_of_mono c 0 (S k') k ltac:(lia)).
          assert (k < length c) by (apply nth_error_Some; congruence). lia. }
      subst k'. assert (iw' = iw) by congruence. subst. rewrite Y. f_equal. assumption.
  Qed.

  Lemma owner_ex : forall p, p < length (ti_array ti) -> exists k w, nth_error c k = Some w /\ token_sigil (ti_array ti) p = Ok (w_sigil w).
  Proof.
    intros p Lp. destruct (nth_error (ti_array ti) p) as [t|] eqn:Et; [|apply nth_error_None in Et; lia].
    assert (G : exists k' iw', nth_error (ti_wits ti) k' = Some iw' /\ token_sigil (ti_array ti) p = Ok (iw_sigil iw')).
    { destruct (arr_cases c ti IX p t Et) as [[k' [iw' [X [_ [_ Y]]]]]|[k' [iw' [X [_ [_ Y]]]]]]; eauto. }
    destruct G as [k [iw [X Y]]]. destruct (wit_back k iw X) as [w [A B]]. exists k, w. rewrite Y, B. auto.
  Qed.

  Lemma inst_lt : forall b ps p, In b (ti_blocks ti) -> block_instances (ti_sa ti) b = Ok ps -> In p ps -> p < length (ti_array ti).
  Proof.
    intros b ps p Hb Hp I. destruct (C14_blocks_sound c ti b P Hb) as [ps' [A [_ [_ [L S1]]]]]. assert (ps' = ps) by congruence. subst ps'.
    destruct (S1 p p I I) as [S2 _]. rewrite map_length in S2. lia.
  Qed.
End Depth.

(** The instances listed for a witness are the occurrences of blocks in it. *)
Theorem C65_instances : forall c ti k w, prepare c = Ok ti -> NoDup (map w_sigil c) -> nth_error c k = Some w ->
  forall p b, In (p, b) (block_instances_for_witness ti (w_sigil w)) <->
    In b (ti_blocks ti) /\ exists ps, block_instances (ti_sa ti) b = Ok ps /\ In p ps /\ belongs c p k.
Proof.
  intros c ti k w P ND Hk p b. pose proof (prepare_index_ok c ti ND P) as IX.
  assert (Lk : k < length c) by (apply nth_error_Some; congruence). split.
  - intro H. destruct (inst_in c ti IX _ _ _ H) as [A [ps [B [C D]]]]. split; [assumption|]. exists ps. split; [assumption|]. split; [assumption|].
    split; [assumption|]. apply (sigil_belongs c ti P ND p k w (inst_lt c ti P b ps p A B C) Hk). assumption.
  - intros [A [ps [B [C [_ D]]]]]. apply (in_inst c ti IX _ _ _ ps A B C). 
    apply (sigil_belongs c ti P ND p k w (inst_lt c ti P b ps p A B C) Hk). assumption.
Qed.
Print Assumptions C65_instances.

(** The depth of a block is the number of witnesses with an instance of it. *)
Theorem C65_depth : forall c ti b, prepare c = Ok ti -> NoDup (map w_sigil c) -> In b (ti_blocks ti) ->
  exists ps d ks, block_instances (ti_sa ti) b = Ok ps /\ block_depth (ti_array ti) (ti_sa ti) b = Ok d /\
    NoDup ks /\ length ks = d /\ (forall k, In k ks <-> exists p, In p ps /\ belongs c p k) /\
    1 <= d <= length c /\ d <= block_frequency b.
Proof.
  intros c ti b P ND Hb. destruct (C14_blocks_sound c ti b P Hb) as [ps [Hps [L2 [NDp [Lb _]]]]].
  destruct (block_sound ti (prepare_text_ok c ti P) b Hb) as [ps' [A' [_ [_ [_ [Fr _]]]]]]. assert (ps' = ps) by congruence. subst ps'.
  assert (M : exists sgs, mapM (token_sigil (ti_array ti)) ps = Ok sgs /\ length sgs = length ps /\
    (forall sg, In sg sgs <-> exists p, In p ps /\ token_sigil (ti_array ti) p = Ok sg)).
  { assert (G : forall q, In q ps -> exists sg, token_sigil (ti_array ti) q = Ok sg).
    { intros q I. destruct (owner_ex c ti P ND q (inst_lt c ti P b ps q Hb Hps I)) as [k [w [_ Q]]]. eauto. }
    clear - G. induction ps as [|p ps IH]; [exists []; cbn; split; [reflexivity|split; [reflexivity|]]; intro; split; [contradiction|intros [? [[] _]]]|].
    destruct IH as [sgs [A [B C]]]; [intros q I; apply G; right; assumption|]. destruct (G p (or_introl eq_refl)) as [sg E].
    exists (sg :: sgs). cbn [mapM]. rewrite E. cbn [bind]. rewrite A. cbn. split; [reflexivity|]. split; [congruence|].
    intro sg'. rewrite C. split.
    - intros [<-|[q [I Q]]]; eauto.
    - intros [q [[<-|I] Q]]; [left; congruence|right; eauto]. }
  destruct M as [sgs [Msg [Lsg Isg]]].
  set (f := fun k => match nth_error c k with Some w => existsb (str_eqb (w_sigil w)) sgs | None => false end).
  set (ks := filter f (seq 0 (length c))).
  assert (Fk : forall k, In k ks <-> exists w, nth_error c k = Some w /\ In (w_sigil w) sgs).
  { intro k. unfold ks. rewrite filter_In, in_seq. unfold f. split.
    - intros [_ H]. destruct (nth_error c k) as [w|]; [|discriminate]. exists w. split; [reflexivity|].
      apply existsb_exists in H as [x [I E]]. apply str_eqb_ok in E. congruence.
    - intros [w [E I]]. split; [split; [lia|]; apply nth_error_Some; congruence|]. rewrite E. apply existsb_exists. exists (w_sigil w). split; [assumption|apply str_eqb_refl]. }
  assert (Own : forall k w, nth_error c k = Some w -> (In (w_sigil w) sgs <-> exists p, In p ps /\ belongs c p k)).
  { intros k w E. assert (k < length c) by (apply nth_error_Some; congruence). rewrite Isg. split; intros [p [I Q]]; exists p; (split; [assumption|]).
    - split; [assumption|]. apply (sigil_belongs c ti P ND p k w (inst_lt c ti P b ps p Hb Hps I) E). assumption.
    - apply (sigil_belongs c ti P ND p k w (inst_lt c ti P b ps p Hb Hps I) E). apply Q. }
  assert (NDk : NoDup ks) by (apply NoDup_filter, seq_NoDup).
  exists ps, (length (sorted_set sgs)), ks. split; [assumption|].
  split; [unfold block_depth; rewrite Hps; cbn [bind]; rewrite Msg; reflexivity|]. split; [assumption|].
  assert (NDs : NoDup (sorted_set sgs)).
  { pose proof (sorted_set_sorted sgs) as S1. clear - S1. induction S1 as [|x l S1 IH F]; constructor; [|assumption].
    intro I. rewrite Forall_forall in F. apply F in I. exact (str_lt_irrefl x I). }
  set (name := fun k => match nth_error c k with Some w => w_sigil w | None => [] end).
  assert (Inj : NoDup (map name ks)).
  { apply NoDup_map_inj_in; [|assumption]. intros k k' I I' E. apply Fk in I as [w [E1 _]]. apply Fk in I' as [w' [E2 _]]. unfold name in E. rewrite E1, E2 in E.
    apply (proj1 (NoDup_nth_error (map w_sigil c)) ND); [rewrite map_length; apply nth_error_Some; congruence|]. rewrite !nth_error_map, E1, E2. cbn. congruence. }
  assert (Same : forall sg, In sg (map name ks) <-> In sg (sorted_set sgs)).
  { intro sg. rewrite sorted_set_In, in_map_iff. split.
    - intros [k [E I]]. apply Fk in I as [w [E1 I]]. unfold name in E. rewrite E1 in E. subst sg. assumption.
    - intro I. pose proof I as I0. apply Isg in I as [p [I Q]]. destruct (owner_ex c ti P ND p (inst_lt c ti P b ps p Hb Hps I)) as [k [w [E1 E2]]].
      assert (w_sigil w = sg) by congruence. exists k. unfold name. rewrite E1. split; [assumption|]. apply Fk. exists w. split; [assumption|]. congruence. }
  assert (Len : length ks = length (sorted_set sgs)).
  { rewrite <- (map_length name ks). apply Nat.le_antisymm; apply NoDup_incl_length; try assumption; intros x I; apply Same; assumption. }
  split; [assumption|]. split.
  { intro k. rewrite Fk. split.
    - intros [w [E I]]. apply (Own k w E). assumption.
    - intros [p [I B]]. destruct (nth_error c k) as [w|] eqn:E; [|apply nth_error_None in E; destruct B; lia]. exists w. split; [reflexivity|]. apply (Own k w E). eauto. }
  split.
  - split.
    + destruct ps as [|p0 ps0]; [cbn in L2; lia|]. destruct sgs as [|s0 sgs0]; [discriminate|].
      assert (I : In s0 (sorted_set (s0 :: sgs0))) by (apply sorted_set_In; left; reflexivity). destruct (sorted_set (s0 :: sgs0)); [contradiction|cbn; lia].
    + rewrite <- Len. unfold ks. etransitivity; [apply filter_length_le|]. rewrite seq_length. lia.
  - rewrite <- Fr, <- Lsg. apply NoDup_incl_length; [assumption|]. intros x I. apply sorted_set_In. assumption.
Qed.
Print Assumptions C65_depth.

(** Among the blocks with a given text there is one whose depth is the number of witnesses in which the text occurs. *)
Theorem C65_text_depth : forall c ti b ps p, prepare c = Ok ti -> NoDup (map w_sigil c) -> In b (ti_blocks ti) ->
  block_instances (ti_sa ti) b = Ok ps -> In p ps ->
  exists b' d ks, In b' (ti_blocks ti) /\ b_len b' = b_len b /\ block_depth (ti_array ti) (ti_sa ti) b' = Ok d /\
    NoDup ks /\ length ks = d /\
    forall k, In k ks <-> exists q, occurs_at (firstn (b_len b) (skipn p (strings ti))) (strings ti) q /\ belongs c q k.
Proof.
  intros c ti b ps p P ND Hb Hps I. destruct (C16_frequency_partial c ti b ps p P Hb Hps I) as [_ [b' [ps' [Hb' [Lb [Hps' [_ Occ]]]]]]].
  destruct (C65_depth c ti b' P ND Hb') as [ps0 [d [ks [A [B [C [D [E _]]]]]]]]. assert (ps0 = ps') by congruence. subst ps0.
  exists b', d, ks. split; [assumption|]. split; [assumption|]. split; [assumption|]. split; [assumption|]. split; [assumption|].
  intro k. rewrite E. split; intros [q [X Y]]; exists q; (split; [apply Occ; assumption|assumption]).
Qed.
Print Assumptions C65_text_depth.

(** Not every block has this depth: here a is a word of both witnesses, but there is a block for it with depth 1. *)
Theorem C65_depth_refuted : exists c ti b ps p q, NoDup (map w_sigil c) /\ prepare c = Ok ti /\ In b (ti_blocks ti) /\
  block_instances (ti_sa ti) b = Ok ps /\ In p ps /\ block_depth (ti_array ti) (ti_sa ti) b = Ok 1 /\
  occurs_at (firstn (b_len b) (skipn p (strings ti))) (strings ti) q /\ belongs c p 1 /\ belongs c q 0.
Proof.
  set (c := [words "A" ["a"; "b"]; words "B" ["a"; "c"; "d"; "a"; "c"; "e"; "a"; "f"]]). exists c.
  destruct (prepare c) as [ti|] eqn:E; [|exfalso; vm_compute in E; discriminate].
  vm_compute in E. injection E as <-. eexists. exists {| b_start := 2; b_end := 4; b_len := 1 |}. exists [3; 6; 9], 3, 0.
  split; [repeat constructor; cbn; intuition discriminate|]. split; [reflexivity|].
  split; [vm_compute; tauto|]. split; [vm_compute; reflexivity|]. split; [left; reflexivity|]. split; [vm_compute; reflexivity|].
  split; [vm_compute; repeat split; lia|]. unfold belongs. vm_compute. repeat split; lia.
Qed.
Print Assumptions C65_depth_refuted.

(** The tokens of an instance: one list, which has the text of the block. *)
Theorem C65_instance_tokens : forall c ti b ps p, prepare c = Ok ti -> In b (ti_blocks ti) -> block_instances (ti_sa ti) b = Ok ps -> In p ps ->
  exists ts, instance_tokens (ti_array ti) p b = [ts] /\ length ts = b_len b /\
    forall q, In q ps -> map (map tk_str) (instance_tokens (ti_array ti) q b) = [map tk_str ts].
Proof.
  intros c ti b ps p P Hb Hps I. destruct (C14_blocks_sound c ti b P Hb) as [ps' [A [_ [_ [L S1]]]]]. assert (ps' = ps) by congruence. subst ps'.
  exists (firstn (b_len b) (skipn p (ti_array ti))). split; [reflexivity|]. destruct (S1 p p I I) as [S2 _]. rewrite map_length in S2.
  split; [rewrite firstn_length, skipn_length; lia|]. intros q Iq. destruct (S1 q p Iq I) as [_ S3]. unfold instance_tokens. cbn [map].
  rewrite <- !firstn_map, <- !skipn_map. congruence.
Qed.
Print Assumptions C65_instance_tokens.

(** It is not the list of these tokens. *)
Theorem C65_instance_tokens_refuted : exists c ti b ps p, prepare c = Ok ti /\ In b (ti_blocks ti) /\ block_instances (ti_sa ti) b = Ok ps /\ In p ps /\
  length (instance_tokens (ti_array ti) p b) <> b_len b.
Proof.
  exists two_witnesses. destruct (prepare two_witnesses) as [ti|] eqn:E; [|exfalso; vm_compute in E; discriminate].
  assert (X : exists b, In b (ti_blocks ti) /\ b_len b = 2).
  { vm_compute in E. injection E as <-. eexists. split; [|]; [vm_compute; left; reflexivity|]. reflexivity. }
  destruct X as [b [Hb L]]. destruct (C14_blocks_sound _ ti b E Hb) as [ps [A [B _]]]. destruct ps as [|p ps]; [cbn in B; lia|].
  exists ti, b, (p :: ps), p. split; [reflexivity|]. split; [assumption|]. split; [assumption|]. split; [left; reflexivity|].
  rewrite L. cbn. discriminate.
Qed.
Print Assumptions C65_instance_tokens_refuted.

Example C65_example : exists ti b, prepare two_witnesses = Ok ti /\ In b (ti_blocks ti) /\
  block_depth (ti_array ti) (ti_sa ti) b = Ok 2 /\ block_frequency b = 4.
Proof.
  destruct (prepare two_witnesses) as [ti|] eqn:E; [|exfalso; vm_compute in E; discriminate].
  exists ti. assert (X : existsb (fun b => match block_depth (ti_array ti) (ti_sa ti) b with Ok 2 => block_frequency b =? 4 | _ => false end) (ti_blocks ti) = true).
  { vm_compute in E. injection E as <-. vm_compute. reflexivity. }
  apply existsb_exists in X as [b [Hb X]]. exists b. split; [reflexivity|]. split; [assumption|].
  clear E. destruct (block_depth (ti_array ti) (ti_sa ti) b) as [[|[|[|d]]]|e]; try discriminate X. split; [reflexivity|]. apply Nat.eqb_eq. assumption.
Qed.
