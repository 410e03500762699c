(** C74: the token index says where the witnesses stand. *)
From Verif Require Import Py Lib TokenModel SuffixModel IndexModel BlockModel SuffixSpec BlockSpec GraphSpec CollateModel CollateSpec Samples
  BlockProof SuffixProof IndexProof BlockText InstProof CubeProof DC3Proof JoinProof Props_blocks Props_depth.
Open Scope list_scope.
Open Scope nat_scope.

Lemma stamped_words : forall c pos k w, nth_error c k = Some w ->
  nth_error (stamped pos c) k = Some {| iw_sigil := w_sigil w; iw_toks := stamp (w_sigil w) (pos + begins c k) (w_toks w) |}.
Proof.
  induction c as [|w0 c IH]; intros pos [|k] w H; try discriminate; cbn [stamped nth_error] in *.
  - injection H as ->. replace (pos + begins (w :: c) 0) with pos by (unfold begins; cbn; lia). reflexivity.
  - rewrite (IH _ k w H). do 3 f_equal. unfold begins. cbn [firstn map]. unfold list_sum. cbn [fold_right]. lia.
Qed.
Lemma layout_markers : forall c idx pos k, k < length c -> 
  exists m, nth_error (layout idx pos c) (begins c (S k) - 1) = Some m /\ tk_str m = marker_str (idx + k).
Proof.
  induction c as [|w c IH]; intros idx pos k H; [cbn in H; lia|]. cbn [layout]. 
  assert (B : forall j, begins (w :: c) (S j) = S (length (w_toks w)) + begins c j) by (intro j; reflexivity). rewrite B. destruct k as [|k].
  - exists (marker idx (pos + length (w_toks w)) (w_sigil w)). unfold begins. cbn [firstn map list_sum fold_right].
    split; [|rewrite Nat.add_0_r; reflexivity]. rewrite nth_error_app2 by (rewrite stamp_length; lia). rewrite stamp_length.
    replace (S (length (w_toks w)) + 0 - 1 - length (w_toks w)) with 0 by lia. reflexivity.
  - cbn [length] in H. destruct (IH (idx + 1) (pos + length (w_toks w) + 1) k ltac:(lia)) as [m [A C]]. exists m. split; [|rewrite C; f_equal; lia].
    assert (1 <= begins c (S k)).
    { destruct c as [|w1 c1]; [cbn in H; lia|]. unfold begins. cbn. lia. }
    rewrite nth_error_app2 by (rewrite stamp_length; lia). rewrite stamp_length.
    rewrite nth_error_app2 by (cbn [length]; lia). cbn [length]. replace (S (length (w_toks w)) + begins c (S k) - 1 - length (w_toks w) - 1) with (begins c (S k) - 1) by lia. exact A.
Qed.
Lemma layout_len : forall c idx pos, length (layout idx pos c) = begins c (length c).
Proof.
  induction c as [|w c IH]; intros idx pos; [reflexivity|]. cbn [layout length]. rewrite !app_length, stamp_length, IH. cbn [length].
  change (begins (w :: c) (S (length c))) with (S (length (w_toks w)) + begins c (length c)). lia.
Qed.
Lemma stamp_word : forall sg ts pos i t, nth_error ts i = Some t -> exists tk, nth_error (stamp sg pos ts) i = Some tk /\ tk_str tk = t0_str t.
Proof.
  intros sg ts. induction ts as [|x ts IH]; intros pos [|i] t H; try discriminate; cbn [nth_error stamp] in *.
  - injection H as ->. eexists. split; reflexivity.
  - apply (IH (pos + 1) i t H).
Qed.

(** The range of a witness is where its tokens stand, in order; it begins where
    start_token_position_for_witness says, the witness's siglum is found there, and between two witnesses there
    is exactly one other entry, the marker. *)
Theorem C74_ranges : forall c ti k w, prepare c = Ok ti -> NoDup (map w_sigil c) -> nth_error c k = Some w ->
  get_range_for_witness ti (w_sigil w) = Ok (seq (begins c k) (length (w_toks w))) /\
  start_token_position ti (w_sigil w) = Ok (begins c k) /\
  forall i t, nth_error (w_toks w) i = Some t ->
    exists tk, nth_error (ti_array ti) (begins c k + i) = Some tk /\ tk_str tk = t0_str t /\
      token_sigil (ti_array ti) (begins c k + i) = Ok (w_sigil w).
Proof.
  intros c ti k w P ND Hk. pose proof (prepare_index_ok c ti ND P) as IX.
  pose proof (stamped_words c 0 k w Hk) as E. cbn [Nat.add] in E. rewrite <- (ix_wits _ _ IX) in E. pose proof (nth_error_In _ _ E) as I.
  pose proof (ix_range c ti IX _ I) as R. cbn [iw_sigil iw_toks] in R. rewrite stamp_pos in R. split; [exact R|]. split.
  - unfold start_token_position. rewrite R. cbn [bind]. pose proof (ix_nonempty _ _ IX) as N. rewrite Forall_forall in N. apply nth_error_In in Hk as Hi. apply N in Hi.
    destruct (w_toks w); [congruence|reflexivity].
  - intros i t Ht. destruct (stamp_word (w_sigil w) (w_toks w) (begins c k) i t Ht) as [tk [A B]].
    pose proof (stamp_nth _ _ _ _ _ A) as Q. pose proof (ix_nth c ti IX _ tk I (nth_error_In _ _ A)) as X. rewrite Q in X.
    exists tk. split; [exact X|]. split; [exact B|]. apply (sigil_belongs c ti P ND _ k w); [apply nth_error_Some; congruence|exact Hk|].
    assert (i < length (w_toks w)) by (apply nth_error_Some; congruence). pose proof (start_of_begins c (S k) 0) as E2. pose proof (start_of_begins c k 0) as E1. cbn [Nat.add] in *.
    rewrite <- E1, <- E2. clear - Hk H. revert k Hk. generalize 0. induction c as [|w0 c IH]; intros p [|k] Hk; try discriminate; cbn [nth_error start_of] in *.
    + injection Hk as ->. destruct c; cbn; lia.
    + apply IH. exact Hk.
Qed.
Print Assumptions C74_ranges.

Theorem C74_markers : forall c ti, prepare c = Ok ti -> NoDup (map w_sigil c) ->
  length (ti_array ti) = begins c (length c) - 1 /\
  forall k, S k < length c -> exists m, nth_error (ti_array ti) (begins c (S k) - 1) = Some m /\ tk_str m = marker_str k.
Proof.
  intros c ti P ND. pose proof (prepare_index_ok c ti ND P) as IX. rewrite (ix_array _ _ IX). split.
  - rewrite removelast_firstn_len, firstn_length, layout_len. lia.
  - intros k Hk. destruct (layout_markers c 0 0 k ltac:(lia)) as [m [A B]]. exists m. split; [|exact B].
    rewrite nth_error_removelast; [exact A|]. rewrite layout_len.
    assert (L : forall j, j < length c -> begins c j < begins c (S j)).
    { clear. induction c as [|w c IH]; intros [|j] H; cbn [length] in H; try lia; [unfold begins; cbn; lia|].
      change (begins (w :: c) (S j)) with (S (length (w_toks w)) + begins c j). change (begins (w :: c) (S (S j))) with (S (length (w_toks w)) + begins c (S j)). specialize (IH j ltac:(lia)). lia. }
    assert (G : forall n j, j + n <= length c -> begins c j <= begins c (j + n)).
    { induction n as [|n IH]; intros j H; [rewrite Nat.add_0_r; lia|]. replace (j + S n) with (S (j + n)) by lia. pose proof (L (j + n) ltac:(lia)). specialize (IH j ltac:(lia)). lia. }
    pose proof (L k ltac:(lia)). pose proof (L (S k) Hk). pose proof (G (length c - S (S k)) (S (S k)) ltac:(lia)) as Q. replace (S (S k) + (length c - S (S k))) with (length c) in Q by lia. lia.
Qed.
Print Assumptions C74_markers.

(** A siglum that is not among the witnesses. *)
Theorem C74_unknown : forall c ti sg, prepare c = Ok ti -> NoDup (map w_sigil c) -> ~ In sg (map w_sigil c) ->
  get_range_for_witness ti sg = Raise WitnessNotAdded /\ start_token_position ti sg = Raise WitnessNotAdded.
Proof.
  intros c ti sg P ND N. pose proof (prepare_index_ok c ti ND P) as IX.
  assert (E : get_range_for_witness ti sg = Raise WitnessNotAdded).
  { unfold get_range_for_witness. destruct (dget str_eqb sg (ti_ranges ti)) as [r|] eqn:E; [|reflexivity]. exfalso. apply N.
    apply (dget_In _ str_eqb_ok) in E. rewrite (ix_ranges _ _ IX) in E. apply in_map_iff in E as [iw [Q I]]. injection Q as <- _.
    rewrite <- (stamped_sigla c 0). apply in_map. exact I. }
  split; [exact E|]. unfold start_token_position. rewrite E. reflexivity.
Qed.
Print Assumptions C74_unknown.

Example C74_example : NoDup (map w_sigil three_witnesses) /\
  (ti <- prepare three_witnesses ;; r <- get_range_for_witness ti (lit "B") ;; Ok r) = Ok (seq 6 5) /\ length (w_toks (nth 1 three_witnesses (hd {| w_sigil := []; w_toks := [] |} three_witnesses))) = 5.
Proof. split; [repeat constructor; cbn; intuition discriminate|]. vm_compute. auto. Qed.
