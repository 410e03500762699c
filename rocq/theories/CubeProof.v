(** The match cube: its entries are matches, and (without filter) all matches. *)
From Verif Require Import Py Lib TokenModel SuffixModel IndexModel GraphModel AlignModel GraphSpec SuffixSpec
  GraphProof MergeProof RankProof AlignProof RadixProof DC3Proof BlockProof SuffixProof IndexProof BlockText InstProof.
From Coq Require Import Permutation Sorted DecimalNat.

(** Token position [p] stands on vertex [v]. *)
Definition at_vertex (W : list wpath) (p : nat) (v : vid) : Prop :=
  exists wp t, In wp W /\ In (v, [t]) (snd wp) /\ tk_pos t = p.

(** What the properties filter has accepted when the token at [q] was matched with the
    token at [p]: the filter saw the token at [q] and the token [i] places before [p],
    at the beginning of a stretch of equal text. *)
Definition filter_passed (filt : option props_filter) (arr : list token) (sg : str) (p q : nat) : Prop :=
  match filt with
  | None => True
  | Some f => exists i tok other d1 d2, i <= p /\ i <= q /\
      nth_error arr q = Some tok /\ nth_error arr (p - i) = Some other /\ token_sigil arr (q - i) = Ok sg /\
      firstn (S i) (skipn (p - i) (map tk_str arr)) = firstn (S i) (skipn (q - i) (map tk_str arr)) /\
      filtered_token_data tok = Ok d1 /\ filtered_token_data other = Ok d2 /\ f d1 d2 = true
  end.

(** An entry of the cube. *)
Definition entry_ok (ti : tindex) (start : nat) (varr : list (option vid)) (rank : list (vid * nat))
    (filt : option props_filter) (sg : str) (yx : coord) (vt : vid * token) : Prop :=
  exists p q rk t', nth_error (ti_array ti) q = Some (snd vt) /\ nth_error (ti_array ti) p = Some t' /\
    p < q /\
    tk_str t' = tk_str (snd vt) /\ nth_error varr p = Some (Some (fst vt)) /\
    dget Nat.eqb (fst vt) rank = Some rk /\
    yx = (Z.of_nat q - Z.of_nat start, Z.of_nat rk - 1)%Z /\
    filter_passed filt (ti_array ti) sg p q.

Lemma firstn_eq_le : forall {A} (l1 l2 : list A) n k, k <= n -> firstn n l1 = firstn n l2 -> firstn k l1 = firstn k l2.
Proof.
  intros A l1 l2 n k H E. rewrite <- (Nat.min_l k n H), <- !firstn_firstn, E. reflexivity.
Qed.


(** ** Owners of the positions of the token array *)
Fixpoint start_of (pos : nat) (c : collation) (k : nat) : nat :=
  match k, c with
  | 0, _ | _, [] => pos
  | S k', w :: c' => start_of (pos + length (w_toks w) + 1) c' k'
  end.

Lemma start_of_ge : forall c pos k, pos <= start_of pos c k.
Proof. induction c as [|w c IH]; intros pos [|k]; simpl; try lia. specialize (IH (pos + length (w_toks w) + 1) k). lia. Qed.

Lemma layout_cases : forall c idx pos i t, nth_error (layout idx pos c) i = Some t ->
  (exists k iw, nth_error (stamped pos c) k = Some iw /\ In t (iw_toks iw) /\ tk_pos t = pos + i /\
     dget str_eqb k_sigil (tk_data t) = Some (JStr (iw_sigil iw))) \/
  (exists k iw, nth_error (stamped pos c) k = Some iw /\ tk_str t = marker_str (idx + k) /\
     pos + i + 1 = start_of pos c (S k) /\ dget str_eqb k_sigil (tk_data t) = Some (JStr (iw_sigil iw)) /\
     tk_pos t = pos + i).
Proof.
  induction c as [|w c IH]; intros idx pos i t H; [destruct i; discriminate|]. cbn [layout] in H.
  set (n := length (w_toks w)) in *.
  destruct (lt_eq_lt_dec i n) as [[Hi|Hi]|Hi].
  - rewrite nth_error_app1 in H by (rewrite stamp_length; assumption). left. exists 0.
    eexists. split; [reflexivity|]. cbn [iw_toks iw_sigil]. pose proof (nth_error_In _ _ H) as I. split; [assumption|].
    split; [apply (stamp_nth _ _ _ _ _ H)|]. apply (stamp_sigil _ _ _ _ I).
  - subst i. rewrite nth_error_app2 in H by (rewrite stamp_length; lia). rewrite stamp_length in H.
    unfold n in H. rewrite Nat.sub_diag in H. simpl in H. injection H as <-. right. exists 0.
    eexists. split; [reflexivity|]. simpl. rewrite Nat.add_0_r. repeat split; auto.
    destruct c; reflexivity.
  - rewrite app_assoc in H. rewrite nth_error_app2 in H by (rewrite app_length, stamp_length; simpl; lia).
    rewrite app_length, stamp_length in H. cbn [length] in H. fold n in H.
    apply IH in H as [[k [iw [A [B [C D]]]]]|[k [iw [A [B [C [D E]]]]]]].
    + left. exists (S k), iw. split; [exact A|]. split; [assumption|]. split; [fold n in C; lia|assumption].
    + right. exists (S k), iw. split; [exact A|]. split; [rewrite B; f_equal; lia|].
      cbn [start_of]. fold n in C, E |- *. split; [rewrite <- C; lia|]. split; [assumption|lia].
Qed.

Lemma stamped_start : forall c pos k iw, nth_error (stamped pos c) k = Some iw ->
  map tk_pos (iw_toks iw) = seq (start_of pos c k) (length (iw_toks iw)) /\
  start_of pos c (S k) = start_of pos c k + length (iw_toks iw) + 1.
Proof.
  induction c as [|w c IH]; intros pos k iw H; [destruct k; discriminate|]. destruct k as [|k].
  - simpl in H. injection H as <-. simpl. rewrite stamp_pos, stamp_length. split; auto. destruct c; reflexivity.
  - simpl in H. destruct (IH _ _ _ H) as [A B]. split; assumption.
Qed.

Lemma start_of_mono : forall c pos k k', k < k' -> k < length c -> start_of pos c k < start_of pos c k'.
Proof.
  induction c as [|w c IH]; intros pos k k' H L; [simpl in L; lia|]. destruct k' as [|k']; [lia|].
  destruct k as [|k]; simpl.
  - pose proof (start_of_ge c (pos + length (w_toks w) + 1) k'). lia.
  - apply IH; simpl in L; lia.
Qed.

Lemma uint_chars_inj : forall a b, uint_chars a = uint_chars b -> a = b.
Proof. induction a; destruct b; simpl; intros H; try discriminate; auto; f_equal; apply IHa; congruence. Qed.

Lemma marker_inj : forall a b, marker_str a = marker_str b -> a = b.
Proof.
  intros a b H. unfold marker_str in H. apply app_inv_head in H. apply uint_chars_inj in H.
  apply DecimalNat.Unsigned.to_uint_inj. assumption.
Qed.

Lemma start_of_end : forall c pos k, length c <= k -> start_of pos c k = start_of pos c (length c).
Proof. induction c as [|w c IH]; intros pos [|k] H; cbn [length start_of] in *; try lia; auto. apply IH. lia. Qed.
Lemma layout_end : forall c idx pos, start_of pos c (length c) = pos + length (layout idx pos c).
Proof.
  induction c as [|w c IH]; intros idx pos; cbn [length start_of layout]; [simpl; lia|].
  rewrite (IH (idx + 1)), !app_length, stamp_length. cbn [length]. lia.
Qed.

Lemma layout_marker : forall c idx pos k w, nth_error c k = Some w ->
  nth_error (layout idx pos c) (start_of pos c (S k) - 1 - pos) = Some (marker (idx + k) (start_of pos c (S k) - 1) (w_sigil w)).
Proof.
  induction c as [|w0 c IH]; intros idx pos k w H; [destruct k; discriminate|]. cbn [layout]. destruct k as [|k].
  - cbn [nth_error] in H. injection H as ->. cbn [start_of]. replace (start_of (pos + length (w_toks w) + 1) c 0) with (pos + length (w_toks w) + 1) by (destruct c; reflexivity).
    rewrite nth_error_app2 by (rewrite stamp_length; lia). rewrite stamp_length.
    replace (pos + length (w_toks w) + 1 - 1 - pos - length (w_toks w)) with 0 by lia. cbn [app nth_error]. do 2 f_equal; lia.
  - cbn [nth_error] in H. change (start_of pos (w0 :: c) (S (S k))) with (start_of (pos + length (w_toks w0) + 1) c (S k)).
    pose proof (IH (idx + 1) (pos + length (w_toks w0) + 1) k w H) as E.
    assert (G : pos + length (w_toks w0) + 1 < start_of (pos + length (w_toks w0) + 1) c (S k)).
    { assert (L : k < length c) by (apply nth_error_Some; congruence).
      pose proof (start_of_mono c (pos + length (w_toks w0) + 1) 0 (S k)). replace (start_of (pos + length (w_toks w0) + 1) c 0) with (pos + length (w_toks w0) + 1) in H0 by (destruct c; reflexivity). lia. }
    rewrite app_assoc, nth_error_app2; rewrite app_length, stamp_length; cbn [length]; [|lia].
    replace (start_of (pos + length (w_toks w0) + 1) c (S k) - 1 - pos - (length (w_toks w0) + 1))
      with (start_of (pos + length (w_toks w0) + 1) c (S k) - 1 - (pos + length (w_toks w0) + 1)) by lia.
    rewrite E. do 2 f_equal. lia.
Qed.
Lemma marker_data : forall idx pos sg d, filtered_token_data (marker idx pos sg) <> Ok d.
Proof. intros idx pos sg d H. unfold filtered_token_data, marker in H. cbn [tk_data] in H. cbn in H. discriminate. Qed.

Section Cube.
  Variables (c : collation) (ti : tindex).
  Hypothesis IX : index_ok c ti.
  Hypothesis TX : index_text_ok ti.
  Variables (start : nat) (varr : list (option vid)) (rank : list (vid * nat)) (filt : option props_filter).

  Lemma same_text : forall b ps p q i, In b (ti_blocks ti) -> block_instances (ti_sa ti) b = Ok ps -> In p ps -> In q ps ->
    i < b_len b ->
    firstn (S i) (skipn p (map tk_str (ti_array ti))) = firstn (S i) (skipn q (map tk_str (ti_array ti))) /\
    exists t u, nth_error (ti_array ti) (p + i) = Some t /\ nth_error (ti_array ti) (q + i) = Some u /\ tk_str t = tk_str u.
  Proof.
    intros b ps p q i Hb Hps Hp Hq Hi. destruct (block_sound ti TX b Hb) as [ps0 [A [_ [_ [_ [_ B]]]]]].
    rewrite Hps in A. injection A as <-. destruct (B p q Hp Hq) as [B1 B2]. destruct (B q p Hq Hp) as [B3 _].
    unfold text in *. rewrite map_length in B1, B3.
    split; [apply firstn_eq_le with (b_len b); [lia|assumption]|].
    destruct (nth_error_lt_ex (ti_array ti) (p + i)) as [t Ht]; [lia|].
    destruct (nth_error_lt_ex (ti_array ti) (q + i)) as [u Hu]; [lia|].
    exists t, u. repeat split; auto.
    assert (E : nth_error (firstn (b_len b) (skipn p (map tk_str (ti_array ti)))) i =
                nth_error (firstn (b_len b) (skipn q (map tk_str (ti_array ti)))) i) by congruence.
    rewrite !nth_error_firstn in E. apply Nat.ltb_lt in Hi. rewrite Hi in E.
    rewrite !nth_error_skipn, !nth_error_map, Ht, Hu in E. simpl in E. congruence.
  Qed.

  Lemma cube_step_sound : forall sg b ps wst gst i m m', In b (ti_blocks ti) -> block_instances (ti_sa ti) b = Ok ps ->
    token_sigil (ti_array ti) wst = Ok sg -> In wst ps -> In gst ps -> gst < wst -> i < b_len b -> cube_step ti start varr rank filt wst gst m i = Ok m' ->
    forall yx vt, dget coord_eqb yx m' = Some vt ->
      dget coord_eqb yx m = Some vt \/ entry_ok ti start varr rank filt sg yx vt.
  Proof.
    intros sg b ps wst gst i m m' Hb Hps Hsg Hw Hg Hlt Hi H yx vt G.
    unfold cube_step in H. apply bind_ok in H as [ov [E1 H]]. apply aget_ok in E1. destruct ov as [v|]; [|discriminate].
    apply bind_ok in H as [rk [E2 H]]. apply (dgetE_ok _) in E2. apply bind_ok in H as [tok [E3 H]]. apply aget_ok in E3.
    apply bind_ok in H as [ok [E4 H]]. injection H as <-. destruct ok; [|left; assumption].
    rewrite (dget_set _ coord_eqb_ok) in G. destruct (coord_eqb _ yx) eqn:Q; [|left; assumption].
    apply coord_eqb_ok in Q. injection G as <-. right.
    destruct (same_text b ps gst wst i Hb Hps Hg Hw Hi) as [ST [t [u [T1 [T2 T3]]]]].
    assert (u = tok) by congruence. subst u.
    exists (gst + i), (wst + i), rk, t. simpl. repeat split; auto; [lia|].
    unfold filter_passed. destruct filt as [f|]; auto.
    apply bind_ok in E4 as [other [F1 E4]]. apply aget_ok in F1. apply bind_ok in E4 as [d1 [F2 E4]].
    apply bind_ok in E4 as [d2 [F3 E4]]. injection E4 as F4.
    exists i, tok, other, d1, d2. replace (gst + i - i) with gst by lia. replace (wst + i - i) with wst by lia.
    repeat split; auto; lia.
  Qed.

  Lemma inst_in : forall sg wst b, In (wst, b) (block_instances_for_witness ti sg) ->
    In b (ti_blocks ti) /\ exists ps, block_instances (ti_sa ti) b = Ok ps /\ In wst ps /\ token_sigil (ti_array ti) wst = Ok sg.
  Proof.
    intros sg wst b H. apply (construct_instances_spec _ _ _ _ (ix_inst _ _ IX)). unfold inst_of, block_instances_for_witness in *.
    destruct (dget str_eqb sg (ti_instances ti)) as [l|]; [eauto|contradiction].
  Qed.

  Lemma in_inst : forall sg wst b ps, In b (ti_blocks ti) -> block_instances (ti_sa ti) b = Ok ps -> In wst ps ->
    token_sigil (ti_array ti) wst = Ok sg -> In (wst, b) (block_instances_for_witness ti sg).
  Proof.
    intros sg wst b ps H1 H2 H3 H4.
    destruct (proj2 (construct_instances_spec _ _ _ _ (ix_inst _ _ IX) sg wst b)) as [l [A B]].
    - split; auto. exists ps. auto.
    - unfold block_instances_for_witness. rewrite A. assumption.
  Qed.

  Lemma arr_cases : forall p t, nth_error (ti_array ti) p = Some t ->
    (exists k iw, nth_error (ti_wits ti) k = Some iw /\ In t (iw_toks iw) /\ tk_pos t = p /\
       token_sigil (ti_array ti) p = Ok (iw_sigil iw)) \/
    (exists k iw, nth_error (ti_wits ti) k = Some iw /\ tk_str t = marker_str k /\
       p + 1 = start_of 0 c (S k) /\ token_sigil (ti_array ti) p = Ok (iw_sigil iw)).
  Proof.
    intros p t H. pose proof H as H'. rewrite (ix_array _ _ IX) in H.
    assert (L : nth_error (layout 0 0 c) p = Some t).
    { rewrite nth_error_removelast in H; auto.
      assert (Lp : p < length (removelast (layout 0 0 c))) by (apply nth_error_Some; congruence).
      rewrite removelast_firstn_len, firstn_length in Lp. lia. }
    unfold token_sigil, aget, dgetE. rewrite H'. cbn [bind].
    rewrite (ix_wits _ _ IX). apply layout_cases in L as [[k [iw [A [B [C D]]]]]|[k [iw [A [B [C [D E]]]]]]].
    - left. exists k, iw. rewrite D. auto.
    - right. exists k, iw. rewrite D. auto.
  Qed.

  (** The positions that carry a siglum are those of the witness and its marker. *)
  Lemma sigil_owner : forall k iw p, nth_error (ti_wits ti) k = Some iw -> token_sigil (ti_array ti) p = Ok (iw_sigil iw) ->
    start_of 0 c k <= p /\ p < start_of 0 c (S k).
  Proof.
    intros k iw p Hk H. destruct (nth_error (ti_array ti) p) as [t|] eqn:E.
    2:{ unfold token_sigil, aget in H. rewrite E in H. discriminate. }
    assert (U : forall k' iw', nth_error (ti_wits ti) k' = Some iw' -> iw_sigil iw' = iw_sigil iw -> k' = k).
    { intros k' iw' H1 H2. pose proof (ix_sigla_nodup c ti IX) as N. rewrite NoDup_nth_error in N.
      apply N; [rewrite map_length; apply nth_error_Some; congruence|]. rewrite !nth_error_map, H1, Hk. simpl. congruence. }
    destruct (arr_cases p t E) as [[k' [iw' [A [B [C D]]]]]|[k' [iw' [A [B [C D]]]]]].
    - rewrite H in D. injection D as D. pose proof (U k' iw' A (eq_sym D)). subst k'.
      assert (iw' = iw) by congruence. subst iw'. rewrite (ix_wits _ _ IX) in A.
      destruct (stamped_start _ _ _ _ A) as [Q1 Q2].
      assert (I : In (tk_pos t) (seq (start_of 0 c k) (length (iw_toks iw)))) by (rewrite <- Q1; apply in_map; assumption).
      apply in_seq in I. lia.
    - rewrite H in D. injection D as D. pose proof (U k' iw' A (eq_sym D)). subst k'.
      rewrite (ix_wits _ _ IX) in A. destruct (stamped_start _ _ _ _ A) as [Q1 Q2]. lia.
  Qed.

  Lemma start_pos : forall k iw s, nth_error (ti_wits ti) k = Some iw -> start_token_position ti (iw_sigil iw) = Ok s ->
    s = start_of 0 c k.
  Proof.
    intros k iw s Hk H. destruct (ix_start c ti IX iw) as [p [A [B C]]]; [apply nth_error_In with k; assumption|].
    rewrite A in H. injection H as <-. rewrite (ix_wits _ _ IX) in Hk. destruct (stamped_start _ _ _ _ Hk) as [Q _].
    rewrite B in Q. destruct (iw_toks iw); [congruence|]. simpl in Q. congruence.
  Qed.

  Variables (k : nat) (iw : iwitness).
  Hypothesis Hk : nth_error (ti_wits ti) k = Some iw.
  Hypothesis Hs : start_token_position ti (iw_sigil iw) = Ok start.

  Theorem cube_sound : forall m, match_cube ti (iw_sigil iw) varr rank filt = Ok m ->
    forall yx vt, dget coord_eqb yx m = Some vt -> entry_ok ti start varr rank filt (iw_sigil iw) yx vt.
  Proof.
    intros m H. unfold match_cube in H. rewrite Hs in H. cbn [bind] in H.
    apply (foldM_ok_inv _ (fun _ m => forall yx vt, dget coord_eqb yx m = Some vt -> entry_ok ti start varr rank filt (iw_sigil iw) yx vt) _ _ _ H).
    - intros yx vt E. discriminate.
    - intros _ [wst b] m0 m1 Hi E IH. apply inst_in in Hi as [Hb [ps [Hps [Hw Hsg]]]].
      pose proof (start_pos _ _ _ Hk Hs) as SP. destruct (sigil_owner _ _ _ Hk Hsg) as [O1 _]. rewrite <- SP in O1.
      unfold cube_instance in E. rewrite Hps in E. cbn [bind] in E.
      apply (foldM_ok_inv _ (fun _ m => forall yx vt, dget coord_eqb yx m = Some vt -> entry_ok ti start varr rank filt (iw_sigil iw) yx vt) _ _ _ E).
      + assumption.
      + intros _ gst m2 m3 Hg E2 IH2. apply filter_In in Hg as [Hg1 Hg2]. apply Nat.ltb_lt in Hg2.
        apply (foldM_ok_inv _ (fun _ m => forall yx vt, dget coord_eqb yx m = Some vt -> entry_ok ti start varr rank filt (iw_sigil iw) yx vt) _ _ _ E2).
        * assumption.
        * intros _ i m4 m5 Hi E3 IH3 yx vt G. apply in_seq in Hi.
          assert (Lt : gst < wst) by lia. assert (Li : i < b_len b) by lia.
          destruct (cube_step_sound _ b ps wst gst i m4 m5 Hb Hps Hsg Hw Hg1 Lt Li E3 yx vt G) as [Q|Q]; auto.
  Qed.

  (** ** Completeness (no filter) *)
  Definition sub (m m' : cube) : Prop := forall yx, dmem coord_eqb yx m = true -> dmem coord_eqb yx m' = true.

  Lemma dmem_dset : forall yx yx' (vt : vid * token) (m : cube),
    dmem coord_eqb yx' (dset coord_eqb yx vt m) = (coord_eqb yx yx' || dmem coord_eqb yx' m)%bool.
  Proof. intros. unfold dmem. rewrite (dget_set _ coord_eqb_ok). destruct (coord_eqb yx yx'); reflexivity. Qed.

  Definition hit (wst gst i : nat) (m : cube) : Prop := forall v rk, nth_error varr (gst + i) = Some (Some v) ->
    dget Nat.eqb v rank = Some rk ->
    dmem coord_eqb (Z.of_nat (wst + i) - Z.of_nat start, Z.of_nat rk - 1)%Z m = true.

  Lemma cube_step_hit : forall wst gst i m m', filt = None -> cube_step ti start varr rank filt wst gst m i = Ok m' ->
    sub m m' /\ hit wst gst i m'.
  Proof.
    intros wst gst i m m' Hf H. unfold cube_step in H. rewrite Hf in H.
    apply bind_ok in H as [ov [E1 H]]. apply aget_ok in E1. destruct ov as [v|]; [|discriminate].
    apply bind_ok in H as [rk [E2 H]]. apply (dgetE_ok _) in E2. apply bind_ok in H as [tok [E3 H]].
    cbn [bind] in H. injection H as <-. split.
    - intros yx D. rewrite dmem_dset, D. apply orb_true_r.
    - intros v' rk' H1 H2. assert (v' = v) by congruence. subst v'. assert (rk' = rk) by congruence. subst rk'.
      rewrite dmem_dset, (eqb_refl' _ coord_eqb_ok). reflexivity.
  Qed.

  Lemma hit_mono : forall wst gst i m m', sub m m' -> hit wst gst i m -> hit wst gst i m'.
  Proof. intros wst gst i m m' S H v rk H1 H2. apply S. eapply H; eauto. Qed.

  Theorem cube_complete : forall m, filt = None -> match_cube ti (iw_sigil iw) varr rank filt = Ok m ->
    forall p q v rk t u, p < start -> nth_error varr p = Some (Some v) -> dget Nat.eqb v rank = Some rk ->
      nth_error (ti_array ti) p = Some t -> nth_error (ti_array ti) q = Some u -> In u (iw_toks iw) ->
      tk_str t = tk_str u ->
      dmem coord_eqb (Z.of_nat q - Z.of_nat start, Z.of_nat rk - 1)%Z m = true.
  Proof.
    intros m Hf H. unfold match_cube in H. rewrite Hs in H. cbn [bind] in H.
    assert (G : forall wst b ps gst i, In (wst, b) (block_instances_for_witness ti (iw_sigil iw)) ->
      block_instances (ti_sa ti) b = Ok ps -> In gst ps -> gst < start -> i < b_len b -> hit wst gst i m).
    { apply (foldM_ok_inv _ (fun pre m => forall wst b ps gst i, In (wst, b) pre ->
        block_instances (ti_sa ti) b = Ok ps -> In gst ps -> gst < start -> i < b_len b -> hit wst gst i m) _ _ _ H).
      - intros wst b ps gst i [].
      - intros pre [wst b] m0 m1 Hi E IH. apply inst_in in Hi as [Hb [ps [Hps [Hw Hsg]]]].
        unfold cube_instance in E. rewrite Hps in E. cbn [bind] in E.
        assert (G : sub m0 m1 /\ forall gst i, In gst (filter (fun p => p <? start) ps) -> i < b_len b -> hit wst gst i m1).
        { apply (foldM_ok_inv _ (fun pre m => sub m0 m /\ forall gst i, In gst pre -> i < b_len b -> hit wst gst i m) _ _ _ E).
          - split; [intros yx D; assumption|]. intros gst i [].
          - intros pre' gst m2 m3 Hg E2 [IH1 IH2].
            assert (G : sub m2 m3 /\ forall i, In i (seq 0 (b_len b)) -> hit wst gst i m3).
            { apply (foldM_ok_inv _ (fun pre m => sub m2 m /\ forall i, In i pre -> hit wst gst i m) _ _ _ E2).
              - split; [intros yx D; assumption|]. intros i [].
              - intros pre'' i m4 m5 Hi E3 [IH3 IH4]. destruct (cube_step_hit _ _ _ _ _ Hf E3) as [S1 S2]. split.
                + intros yx D. auto.
                + intros j Hj. apply in_app_or in Hj as [Hj|[<-|[]]]; [|assumption]. apply hit_mono with m4; auto. }
            destruct G as [G1 G2]. split; [intros yx D; auto|].
            intros gst' i Hg' Hi. apply in_app_or in Hg' as [Hg'|[<-|[]]]; [apply hit_mono with m2; auto|].
            apply G2. apply in_seq. lia. }
        destruct G as [G1 G2]. intros wst' b' ps' gst i Hi Hps' Hg Hgs Hl.
        apply in_app_or in Hi as [Hi|[Hi|[]]].
        + apply hit_mono with m0; auto. eapply IH; eauto.
        + injection Hi as <- <-. rewrite Hps in Hps'. injection Hps' as <-. apply G2; auto. apply filter_In.
          split; auto. apply Nat.ltb_lt. assumption. }
    intros p q v rk t u Hp Hv Hr Ht Hu Hin E.
    assert (Tq : tk_pos u = q /\ start <= q).
    { pose proof (start_pos _ _ _ Hk Hs) as SP. pose proof Hk as Hk'. rewrite (ix_wits _ _ IX) in Hk'.
      destruct (stamped_start _ _ _ _ Hk') as [Q1 _].
      assert (I : In (tk_pos u) (seq (start_of 0 c k) (length (iw_toks iw)))) by (rewrite <- Q1; apply in_map; assumption).
      apply in_seq in I.
      assert (tk_pos u = q).
      { assert (Lq : q < length (ti_array ti)) by (apply nth_error_Some; congruence).
        destruct (arr_cases q u Hu) as [[k' [iw' [_ [_ [C _]]]]]|[k' [iw' [A [B [C D]]]]]]; auto.
        pose proof (ix_array _ _ IX) as EA. pose proof Hu as HL. rewrite EA in HL.
        rewrite nth_error_removelast in HL.
        - apply layout_cases in HL as [[k2 [iw2 [_ [_ [C2 _]]]]]|[k2 [iw2 [_ [_ [_ [_ C2]]]]]]]; lia.
        - rewrite EA in Lq. rewrite removelast_firstn_len, firstn_length in Lq. lia. }
      split; lia. }
    destruct Tq as [Tq Ts].
    assert (Sq : token_sigil (ti_array ti) q = Ok (iw_sigil iw)).
    { destruct (arr_cases q u Hu) as [[k' [iw' [A [B [C D]]]]]|[k' [iw' [A [B [C D]]]]]].
      - rewrite D. f_equal. f_equal.
        apply (ix_wit_unique c ti IX iw' iw u u); auto; [apply nth_error_In with k'; assumption|apply nth_error_In with k; assumption].
      - pose proof (start_pos _ _ _ Hk Hs) as SP. pose proof Hk as Hk'. rewrite (ix_wits _ _ IX) in Hk'.
        destruct (stamped_start _ _ _ _ Hk') as [Q1 Q2].
        assert (I : In (tk_pos u) (seq (start_of 0 c k) (length (iw_toks iw)))) by (rewrite <- Q1; apply in_map; assumption).
        apply in_seq in I.
        assert (Lk : k < length c). { rewrite <- (map_length w_sigil), <- (stamped_sigla c 0), map_length. apply nth_error_Some. congruence. }
        assert (Lk' : k' < length c).
        { rewrite <- (map_length w_sigil), <- (stamped_sigla c 0), map_length, <- (ix_wits _ _ IX). apply nth_error_Some. congruence. }
        destruct (lt_eq_lt_dec k' k) as [[Q|Q]|Q].
        + destruct (Nat.eq_dec (S k') k) as [Q'|Q'].
          * subst k. lia.
          * assert (Lt : S k' < k) by lia. pose proof (start_of_mono c 0 (S k') k Lt). lia.
        + subst k'. lia.
        + assert (Lt : S k < S k') by lia. assert (start_of 0 c (S k) < start_of 0 c (S k')).
          { apply start_of_mono; lia. } lia. }
    (* the common text of the two suffixes *)
    set (T := map tk_str (ti_array ti)) in *.
    assert (Lc : exists j, 0 < j /\ is_lcp (skipn p T) (skipn q T) j).
    { assert (Tp : nth_error T p = Some (tk_str u)) by (unfold T; rewrite nth_error_map, Ht; simpl; congruence).
      assert (Tq' : nth_error T q = Some (tk_str u)) by (unfold T; rewrite nth_error_map, Hu; reflexivity).
      rewrite (skipn_nth_error _ _ _ Tp), (skipn_nth_error _ _ _ Tq').
      generalize (skipn (S p) T) (skipn (S q) T). intros l1 l2.
      assert (LL : forall l1 l2 : list str, exists j, is_lcp l1 l2 j).
      { clear. induction l1 as [|a l1 IH]; intros l2.
        - exists 0. repeat split; simpl; try lia. intros x y Hx. discriminate.
        - destruct l2 as [|b l2]; [exists 0; repeat split; simpl; try lia; intros x y _ Hy; discriminate|].
          destruct (str_dec a b) as [->|NE].
          + destruct (IH l2) as [j [J1 [J2 [J3 J4]]]]. exists (S j). repeat split; simpl; try lia; auto. congruence.
          + exists 0. repeat split; simpl; try lia. intros x y Hx Hy. congruence. }
      destruct (LL l1 l2) as [j [J1 [J2 [J3 J4]]]]. exists (S j). split; [lia|].
      repeat split; simpl; try lia; auto. congruence. }
    destruct Lc as [j [Hj Lc]]. assert (NE : p <> q) by lia.
    destruct (block_complete ti TX p q j NE Hj Lc) as [b [ps [B1 [B2 [B3 [B4 B5]]]]]].
    pose proof (G q b ps p 0 (in_inst (iw_sigil iw) q b ps B1 B3 B5 Sq) B3 B4 Hp) as HH.
    rewrite B2 in HH. specialize (HH Hj v rk). rewrite !Nat.add_0_r in HH. apply HH; assumption.
  Qed.

  Lemma wits_length : length (ti_wits ti) = length c.
  Proof. rewrite (ix_wits _ _ IX), <- (map_length iw_sigil), stamped_sigla, map_length. reflexivity. Qed.

  (** The last marker is not in the array. *)
  Lemma marker_not_last : forall p k2, p < length (ti_array ti) -> p + 1 = start_of 0 c (S k2) -> S k2 < length c.
  Proof.
    intros p k2 Hp E. rewrite (ix_array _ _ IX), removelast_firstn_len, firstn_length in Hp.
    pose proof (layout_end c 0 0) as L. destruct (le_lt_dec (length c) (S k2)) as [X|X]; [|assumption].
    rewrite (start_of_end c 0 (S k2) X) in E. rewrite Nat.add_0_l in L. lia.
  Qed.

  Lemma marker_at : forall j w, nth_error c j = Some w -> S j < length c ->
    nth_error (ti_array ti) (start_of 0 c (S j) - 1) = Some (marker j (start_of 0 c (S j) - 1) (w_sigil w)) /\
    token_sigil (ti_array ti) (start_of 0 c (S j) - 1) = Ok (w_sigil w).
  Proof.
    intros j w H L. pose proof (layout_marker c 0 0 j w H) as E. rewrite Nat.sub_0_r in E. cbn [Nat.add] in E.
    assert (A : nth_error (ti_array ti) (start_of 0 c (S j) - 1) = Some (marker j (start_of 0 c (S j) - 1) (w_sigil w))).
    { rewrite (ix_array _ _ IX), nth_error_removelast; [assumption|]. pose proof (layout_end c 0 0) as Q. cbn [Nat.add] in Q. rewrite <- Q.
      assert (start_of 0 c (S j) < start_of 0 c (length c)) by (apply start_of_mono; lia).
      assert (0 < start_of 0 c (S j)). { assert (start_of 0 c 0 < start_of 0 c (S j)) by (apply start_of_mono; lia). lia. } lia. }
    split; [exact A|]. unfold token_sigil, aget. rewrite A. reflexivity.
  Qed.

  (** *** What every successful run has visited *)
  Lemma foldM_visits : forall {A B} (f : A -> B -> res A) l a r x, foldM f l a = Ok r -> In x l -> exists a' b', f a' x = Ok b'.
  Proof.
    induction l as [|y l IH]; intros a r x H Hi; [contradiction|]. cbn [foldM] in H. apply bind_ok in H as [a1 [E H]].
    destruct Hi as [<-|Hi]; eauto.
  Qed.

  Lemma common_text : forall p q t u, nth_error (ti_array ti) p = Some t -> nth_error (ti_array ti) q = Some u -> tk_str t = tk_str u ->
    exists j, 0 < j /\ is_lcp (skipn p (map tk_str (ti_array ti))) (skipn q (map tk_str (ti_array ti))) j.
  Proof.
    intros p q t u Ht Hu E. set (T := map tk_str (ti_array ti)).
    assert (Tp : nth_error T p = Some (tk_str u)) by (unfold T; rewrite nth_error_map, Ht; simpl; congruence).
    assert (Tq' : nth_error T q = Some (tk_str u)) by (unfold T; rewrite nth_error_map, Hu; reflexivity).
    rewrite (skipn_nth_error _ _ _ Tp), (skipn_nth_error _ _ _ Tq').
    generalize (skipn (S p) T) (skipn (S q) T). intros l1 l2.
    assert (LL : forall l1 l2 : list str, exists j, is_lcp l1 l2 j).
    { clear. induction l1 as [|a l1 IH]; intros l2.
      - exists 0. repeat split; simpl; try lia. intros x y Hx. discriminate.
      - destruct l2 as [|b l2]; [exists 0; repeat split; simpl; try lia; intros x y _ Hy; discriminate|].
        destruct (str_dec a b) as [->|NE].
        + destruct (IH l2) as [j [J1 [J2 [J3 J4]]]]. exists (S j). repeat split; simpl; try lia; auto. congruence.
        + exists 0. repeat split; simpl; try lia. intros x y Hx Hy. congruence. }
    destruct (LL l1 l2) as [j [J1 [J2 [J3 J4]]]]. exists (S j). split; [lia|].
    repeat split; simpl; try lia; auto. congruence.
  Qed.

  (** If the cube has been built, every earlier position with the same text as a position of
      the witness (or of its marker) stands on a vertex, and the filter could be called. *)
  Theorem cube_visits : forall m p q t u, match_cube ti (iw_sigil iw) varr rank filt = Ok m ->
    p < start -> nth_error (ti_array ti) p = Some t -> nth_error (ti_array ti) q = Some u -> p <> q ->
    token_sigil (ti_array ti) q = Ok (iw_sigil iw) -> tk_str t = tk_str u ->
    (exists v, nth_error varr p = Some (Some v)) /\ (filt <> None -> exists d, filtered_token_data u = Ok d).
  Proof.
    intros m p q t u H Hp Ht Hu NE Sq E. unfold match_cube in H. rewrite Hs in H. cbn [bind] in H.
    destruct (common_text p q t u Ht Hu E) as [j [Hj Lc]].
    destruct (block_complete ti TX p q j NE Hj Lc) as [b [ps [B1 [B2 [B3 [B4 B5]]]]]].
    pose proof (in_inst (iw_sigil iw) q b ps B1 B3 B5 Sq) as Hi.
    destruct (foldM_visits _ _ _ _ _ H Hi) as [m1 [m2 C]]. unfold cube_instance in C. rewrite B3 in C. cbn [bind] in C.
    assert (Hf : In p (filter (fun p => p <? start) ps)) by (apply filter_In; split; [assumption|apply Nat.ltb_lt; assumption]).
    destruct (foldM_visits _ _ _ _ _ C Hf) as [m3 [m4 D]].
    assert (H0 : In 0 (seq 0 (b_len b))) by (apply in_seq; lia).
    destruct (foldM_visits _ _ _ _ _ D H0) as [m5 [m6 F]]. unfold cube_step in F. rewrite !Nat.add_0_r in F.
    apply bind_ok in F as [ov [F1 F]]. apply aget_ok in F1. destruct ov as [v|]; [|discriminate]. split; [eauto|].
    apply bind_ok in F as [rk [F2 F]]. apply bind_ok in F as [tok [F3 F]]. apply aget_ok in F3.
    assert (tok = u) by congruence. subst tok. intros NF. destruct filt as [f|]; [|congruence].
    apply bind_ok in F as [ok [F4 _]]. apply bind_ok in F4 as [oth [_ F4]]. apply bind_ok in F4 as [d [F4 _]]. eauto.
  Qed.

  (** ** Totality: no user token is confused with a marker *)
  Hypothesis NM : forall k' iw' t j, nth_error (ti_wits ti) k' = Some iw' -> In t (iw_toks iw') -> S j < length (ti_wits ti) ->
    j < k' \/ (filt <> None /\ k' < j) -> tk_str t <> marker_str j.

  Lemma not_marker_pos : forall b ps p q i j iw' t, In b (ti_blocks ti) -> block_instances (ti_sa ti) b = Ok ps ->
    In p ps -> In q ps -> p < q -> i < b_len b ->
    nth_error (ti_wits ti) j = Some iw' -> nth_error (ti_array ti) (p + i) = Some t -> tk_str t = marker_str j ->
    p + i + 1 = start_of 0 c (S j) -> False.
  Proof.
    intros b ps p q i j iw' t Hb Hps Hp Hq NE Hi Hj Ht Es Ep.
    destruct (same_text b ps p q i Hb Hps Hp Hq Hi) as [_ [t1 [u [T1 [T2 T3]]]]].
    assert (t1 = t) by congruence. subst t1.
    destruct (arr_cases _ _ T2) as [[k' [iw2 [A [B [TPos _]]]]]|[k' [iw2 [A [B [C D]]]]]].
    - assert (X : S j <= k').
      { destruct (le_lt_dec (S j) k') as [X|X]; [assumption|]. exfalso. pose proof A as A'. rewrite (ix_wits _ _ IX) in A'.
        destruct (stamped_start _ _ _ _ A') as [R1 R2].
        assert (I1 : In (tk_pos u) (seq (start_of 0 c k') (length (iw_toks iw2)))) by (rewrite <- R1; apply in_map; assumption).
        apply in_seq in I1. 
        assert (start_of 0 c (S k') <= start_of 0 c (S j)).
        { destruct (Nat.eq_dec k' j) as [->|X']; [lia|]. assert (Lk : S k' < length c).
          { assert (j < length (ti_wits ti)) by (apply nth_error_Some; congruence). rewrite wits_length in H. lia. }
          pose proof (start_of_mono c 0 (S k') (S j)). lia. }
        lia. }
      assert (Lk : k' < length (ti_wits ti)) by (apply nth_error_Some; congruence).
      apply (NM k' iw2 u j); auto; [lia|congruence].
    - rewrite <- T3, Es in B. apply marker_inj in B. subst k'. lia.
  Qed.

  Hypothesis HV : forall iw' k' t, nth_error (ti_wits ti) k' = Some iw' -> k' < k -> In t (iw_toks iw') ->
    exists v rk, nth_error varr (tk_pos t) = Some (Some v) /\ dget Nat.eqb v rank = Some rk.

  Lemma filtered_ok : forall p t iw', In iw' (ti_wits ti) -> In t (iw_toks iw') -> nth_error (ti_array ti) p = Some t ->
    exists d, filtered_token_data t = Ok d.
  Proof.
    intros p t iw' Hi Ht Hp. rewrite (ix_wits _ _ IX) in Hi. destruct (stamped_toks _ _ _ Hi) as [p0 [w [A [B C]]]].
    rewrite C in Ht. assert (E : exists d, tk_data t = dset str_eqb k_pos (JNum (Z.of_nat (tk_pos t))) (dset str_eqb k_sigil (JStr (w_sigil w)) d)).
    { clear - Ht. revert p0 Ht. induction (w_toks w) as [|t0 ts IH]; intros p0 Ht; [contradiction|].
      destruct Ht as [<-|Ht]; [exists (t0_data t0); reflexivity|eauto]. }
    destruct E as [d E]. unfold filtered_token_data. rewrite E. unfold dgetE at 1. rewrite !(dget_set _ str_eqb_ok).
    assert (N1 : str_eqb k_pos k_sigil = false) by reflexivity. rewrite N1, str_eqb_refl. cbn [bind].
    assert (D : forall (l : jdict), dget str_eqb k_pos (ddel str_eqb k_sigil l) = dget str_eqb k_pos l).
    { induction l as [|[k1 v1] l IH]; auto. cbn [ddel]. destruct (str_eqb k_sigil k1) eqn:Q.
      - apply str_eqb_ok in Q. subst k1. cbn [dget]. rewrite N1. reflexivity.
      - cbn [dget]. rewrite IH. reflexivity. }
    unfold dgetE. rewrite D, (dget_set _ str_eqb_ok), str_eqb_refl. cbn [bind]. eexists. reflexivity.
  Qed.

  Theorem cube_total : exists m, match_cube ti (iw_sigil iw) varr rank filt = Ok m.
  Proof.
    unfold match_cube. rewrite Hs. cbn [bind].
    assert (G : forall l m0, (forall x, In x l -> In x (block_instances_for_witness ti (iw_sigil iw))) ->
      exists m, foldM (cube_instance ti start varr rank filt) l m0 = Ok m).
    { induction l as [|[wst b] l IH]; intros m0 Hl; [eexists; reflexivity|]. cbn [foldM].
      assert (E : exists m1, cube_instance ti start varr rank filt m0 (wst, b) = Ok m1).
      { destruct (inst_in (iw_sigil iw) wst b) as [Hb [ps [Hps [Hw Hsg]]]]; [apply Hl; left; reflexivity|].
        pose proof (start_pos _ _ _ Hk Hs) as SP. destruct (sigil_owner _ _ _ Hk Hsg) as [O1 _]. rewrite <- SP in O1.
        unfold cube_instance. rewrite Hps. cbn [bind].
        assert (STEP : forall gst i m, In gst ps -> gst < start -> i < b_len b ->
          exists m', cube_step ti start varr rank filt wst gst m i = Ok m').
        { intros gst i m Hg Hlt Hi. assert (NE : gst < wst) by lia.
          (* positions gst .. gst+i are tokens of earlier witnesses *)
          assert (TP : forall i, i < b_len b -> gst + i < start /\ exists k' iw' t, nth_error (ti_wits ti) k' = Some iw' /\ k' < k /\
             In t (iw_toks iw') /\ tk_pos t = gst + i /\ nth_error (ti_array ti) (gst + i) = Some t).
          { intros j. induction j as [j IHj] using lt_wf_ind. intros Hj.
            destruct (same_text b ps gst wst j Hb Hps Hg Hw Hj) as [_ [t [u [T1 [T2 T3]]]]].
            assert (Lj : gst + j < start).
            { destruct j as [|j]; [lia|]. destruct (IHj j) as [Q1 [k' [iw' [t' [Q2 [Q3 [Q4 [Q5 Q6]]]]]]]]; [lia|lia|].
              (* gst+j is a token of witness k'; its successor is a token or a marker of the same *)
              destruct (arr_cases _ _ T1) as [[k2 [iw2 [A [B [C D]]]]]|[k2 [iw2 [A [B [C D]]]]]].
              2:{ exfalso. apply (not_marker_pos b ps gst wst (S j) k2 iw2 t); auto. }
              rewrite (ix_wits _ _ IX) in Q2, A. destruct (stamped_start _ _ _ _ Q2) as [R1 R2].
              destruct (stamped_start _ _ _ _ A) as [R3 R4].
              assert (I1 : In (tk_pos t') (seq (start_of 0 c k') (length (iw_toks iw')))) by (rewrite <- R1; apply in_map; assumption).
              apply in_seq in I1.
              assert (Lk' : k' < length c).
              { rewrite <- (map_length w_sigil), <- (stamped_sigla c 0), map_length. apply nth_error_Some. congruence. }
              assert (M : start_of 0 c (S k') <= start_of 0 c k).
              { destruct (Nat.eq_dec (S k') k) as [X|X]; [rewrite X; lia|].
                assert (Lt : k' < k) by assumption. assert (S k' < length c).
                { assert (k < length (ti_wits ti)) by (apply nth_error_Some; congruence).
                  rewrite (ix_wits _ _ IX) in H. rewrite <- (map_length iw_sigil), stamped_sigla, map_length in H. lia. }
                assert (start_of 0 c (S k') < start_of 0 c k) by (apply start_of_mono; lia). lia. }
              lia. }
            split; auto.
            destruct (arr_cases _ _ T1) as [[k2 [iw2 [A [B [C D]]]]]|[k2 [iw2 [A [B [C D]]]]]].
            2:{ exfalso. apply (not_marker_pos b ps gst wst j k2 iw2 t); auto. }
            exists k2, iw2, t. split; auto. split; auto.
            destruct (le_lt_dec k k2) as [X|X]; auto. exfalso.
            rewrite (ix_wits _ _ IX) in A. destruct (stamped_start _ _ _ _ A) as [R3 R4].
            assert (I1 : In (tk_pos t) (seq (start_of 0 c k2) (length (iw_toks iw2)))) by (rewrite <- R3; apply in_map; assumption).
            apply in_seq in I1. 
            assert (start_of 0 c k <= start_of 0 c k2).
            { destruct (Nat.eq_dec k k2) as [->|X']; [lia|].
              assert (start_of 0 c k < start_of 0 c k2).
              { apply start_of_mono; [lia|]. rewrite <- (map_length w_sigil), <- (stamped_sigla c 0), map_length.
                assert (k2 < length (stamped 0 c)) by (apply nth_error_Some; congruence). lia. } lia. }
            lia. }
          destruct (TP i Hi) as [_ [k' [iw' [t [A1 [A2 [A3 [A4 A5]]]]]]]].
          destruct (HV iw' k' t A1 A2 A3) as [v [rk [V1 V2]]]. rewrite A4 in V1.
          unfold cube_step, aget at 1. rewrite V1. cbn [bind]. unfold dgetE at 1. rewrite V2. cbn [bind].
          destruct (same_text b ps gst wst i Hb Hps Hg Hw Hi) as [_ [t1 [u [T1 [T2 T3]]]]].
          unfold aget at 1. rewrite T2. cbn [bind].
          destruct filt as [f|]; [|eexists; reflexivity].
          assert (P0 : 0 < b_len b) by lia.
          destruct (TP 0 P0) as [_ [k3 [iw3 [t3 [B1 [B2 [B3 [B4 B5]]]]]]]].
          rewrite Nat.add_0_r in B5. unfold aget at 1. rewrite B5. cbn [bind].
          assert (FU : exists d, filtered_token_data u = Ok d).
          { destruct (arr_cases _ _ T2) as [[k2 [iw2 [A [B [C D]]]]]|[k2 [iw2 [A [B [C D]]]]]].
            - apply (filtered_ok (wst + i) u iw2); auto. apply nth_error_In with k2. assumption.
            - exfalso. assert (Lw : wst + i < length (ti_array ti)) by (apply nth_error_Some; congruence).
              pose proof (marker_not_last (wst + i) k2 Lw C) as NL. rewrite <- wits_length in NL.
              assert (KK : k <= k2).
              { destruct (le_lt_dec k k2) as [X|X]; [assumption|]. exfalso.
                assert (start_of 0 c (S k2) <= start_of 0 c k).
                { destruct (Nat.eq_dec (S k2) k) as [->|X']; [lia|]. rewrite wits_length in NL.
                  pose proof (start_of_mono c 0 (S k2) k). lia. }
                lia. }
              apply (NM k' iw' t k2); auto; [right; split; [discriminate|lia]|].
              assert (t1 = t) by congruence. subst t1. congruence. }
          destruct FU as [d1 ->]. cbn [bind].
          destruct (filtered_ok gst t3 iw3) as [d2 ->]; auto; [apply nth_error_In with k3; assumption|].
          cbn [bind]. destruct (f d1 d2); eexists; reflexivity. }
        assert (GG : forall gs m, (forall g, In g gs -> In g ps /\ g < start) ->
          exists m', foldM (fun m gst => foldM (cube_step ti start varr rank filt wst gst) (seq 0 (b_len b)) m) gs m = Ok m').
        { induction gs as [|g gs IHg]; intros m Hg; [eexists; reflexivity|]. cbn [foldM].
          destruct (Hg g (or_introl eq_refl)) as [G1 G2].
          assert (G3 : forall is m, (forall i, In i is -> i < b_len b) -> exists m', foldM (cube_step ti start varr rank filt wst g) is m = Ok m').
          { induction is as [|i is IHi]; intros m2 Hi; [eexists; reflexivity|]. cbn [foldM].
            destruct (STEP g i m2 G1 G2 (Hi i (or_introl eq_refl))) as [m3 ->]. cbn [bind]. apply IHi. intros. apply Hi. right. assumption. }
          destruct (G3 (seq 0 (b_len b)) m) as [m2 ->]; [intros i Hi; apply in_seq in Hi; lia|]. cbn [bind].
          apply IHg. intros. apply Hg. right. assumption. }
        apply GG. intros g Hg. apply filter_In in Hg as [Hg1 Hg2]. apply Nat.ltb_lt in Hg2. auto. }
      destruct E as [m1 ->]. cbn [bind]. apply IH. intros x Hx. apply Hl. right. assumption. }
    apply G. auto.
  Qed.
End Cube.
