(** The aligner: the invariant of EditGraphAligner.collate. *)
From Verif Require Import Py Lib TokenModel SuffixModel IndexModel GraphModel AlignModel GraphSpec SuffixSpec
  GraphProof MergeProof RankProof AlignProof RadixProof DC3Proof BlockProof SuffixProof IndexProof BlockText InstProof
  CubeProof.
From Coq Require Import Permutation Sorted.

(** ** Number of ranks *)
Lemma nat_set_In : forall l x, In x (nat_set l) <-> In x l.
Proof.
  induction l as [|a l IH]; intros x; simpl; [tauto|]. destruct (existsb (Nat.eqb a) (nat_set l)) eqn:E.
  - apply (existsb_eqb _ nat_eqb_ok) in E. rewrite IH in *. split; [auto|]. intros [<-|H]; auto.
  - simpl. rewrite IH. tauto.
Qed.
Lemma nat_set_NoDup : forall l, NoDup (nat_set l).
Proof.
  induction l as [|a l IH]; simpl; [constructor|]. destruct (existsb (Nat.eqb a) (nat_set l)) eqn:E; auto.
  constructor; auto. intro C. apply (existsb_eqb _ nat_eqb_ok) in C. congruence.
Qed.

Lemma rank_count : forall g rk m l, rank_ok g rk m l -> length (nat_set (map rk (vertices g))) = m.
Proof.
  intros g rk m l RO. rewrite <- (seq_length m 0). apply Permutation_length. apply NoDup_Permutation.
  - apply nat_set_NoDup.
  - apply seq_NoDup.
  - intros x. rewrite nat_set_In, in_map_iff, in_seq. split.
    + intros [v [<- H]]. apply (ro_lt _ _ _ _ RO) in H. lia.
    + intros H. destruct (ro_onto _ _ _ _ RO x) as [v [V1 V2]]; [lia|]. eauto.
Qed.

Lemma by_vertex_get : forall g rk m l v, rank_ok g rk m l -> In v (vertices g) ->
  dget Nat.eqb v (by_vertex (ranking_for rk m l)) = Some (rk v).
Proof.
  intros. unfold ranking_for. simpl. apply (dget_map _ nat_eqb_ok).
  apply (Permutation_in _ (Permutation_sym (ro_perm _ _ _ _ H))). assumption.
Qed.

Lemma by_vertex_inv : forall g rk m l v r, rank_ok g rk m l ->
  dget Nat.eqb v (by_vertex (ranking_for rk m l)) = Some r -> In v (vertices g) /\ r = rk v.
Proof.
  intros g rk m l v r H D. apply (dget_In _ nat_eqb_ok) in D. unfold ranking_for in D. simpl in D.
  apply in_map_iff in D as [x [E I]]. injection E as -> <-. split; auto.
  apply (Permutation_in _ (ro_perm _ _ _ _ H)). assumption.
Qed.

Lemma ranks_ok : forall g rk m l, rank_ok g rk m l ->
  mapM (fun v => dgetE Nat.eqb v (by_vertex (ranking_for rk m l))) (vertices g) = Ok (map rk (vertices g)).
Proof.
  intros. apply mapM_ok. intros v Hv. apply (dgetE_ok _). apply by_vertex_get with g; assumption.
Qed.

Lemma StronglySorted_of_nth_error : forall {A} (R : A -> A -> Prop) l,
  (forall i j a b, i < j -> nth_error l i = Some a -> nth_error l j = Some b -> R a b) -> StronglySorted R l.
Proof.
  induction l as [|x l IH]; intros H; constructor.
  - apply IH. intros i j a b Hij Ha Hb. apply (H (S i) (S j)); simpl; auto; lia.
  - rewrite Forall_forall. intros y Hy. apply In_nth_error in Hy as [i Hi]. apply (H 0 (S i)); simpl; auto; lia.
Qed.

(** ** The result of the table traceback *)
Lemma align_fold_nodup : forall m l st st', foldM (align_step m) l st = Ok st' -> NoDup (map fst (fst st)) ->
  NoDup (map fst (fst st')).
Proof.
  intros m l st st' H N.
  apply (foldM_ok_inv _ (fun _ s => NoDup (map fst (fst s))) _ _ _ H); auto.
  intros _ s [a u] b' _ E Hb. unfold align_step in E. simpl in Hb.
  destruct (s_type s); try (injection E as <-; assumption).
  apply bind_ok in E as [[v t] [_ E]]. destruct (existsb _ u); injection E as <-; auto.
  simpl. apply (dset_NoDup _ nat_eqb_ok). assumption.
Qed.

Section Traceback.
  Variables (g : graph) (W : list wpath) (rk : vid -> nat) (mm : nat) (l : list vid).
  Variables (ts : list token) (p0 : nat) (m : cube).
  Hypothesis GI : graph_of g W.
  Hypothesis RO : rank_ok g rk mm l.
  Hypothesis NE : W <> [].
  Hypothesis HP : map tk_pos ts = seq p0 (length ts).
  Hypothesis CE : forall y x v t, dget coord_eqb (Z.of_nat y, x) m = Some (v, t) -> y < length ts ->
    nth_error ts y = Some t /\ In v (vertices g) /\ v <> v_start /\ v <> v_end /\ x = (Z.of_nat (rk v) - 1)%Z.

  Lemma cols_eq : mm - 1 = rk v_end.
  Proof. pose proof (rank_end_max g W rk mm l GI RO NE). lia. Qed.

  Lemma cols_pos : 1 <= mm - 1.
  Proof.
    rewrite cols_eq. pose proof (rank_le_end g W rk mm l GI RO NE v_start) as H.
    assert (rk v_start < rk v_end); [|lia]. apply H; [apply (start_In g W GI)|discriminate].
  Qed.

  Lemma align_result : exists aligned,
    align_matching_tokens m (fill_table m (mm - 1) (length ts)) = Ok aligned /\
    NoDup (map fst aligned) /\ align_ok g rk aligned ts /\
    (forall p v, In (p, v) aligned -> exists y t, nth_error ts y = Some t /\ tk_pos t = p /\
       dget coord_eqb (Z.of_nat y, Z.of_nat (rk v) - 1)%Z m = Some (v, t)).
  Proof.
    unfold align_matching_tokens. set (cols := mm - 1) in *. set (rows := length ts) in *.
    pose proof cols_pos as C1. fold cols in C1.
    assert (R0 : exists r0, nth_error (fill_table m cols rows) 0 = Some r0 /\ length r0 = cols).
    { destruct (nth_error_lt_ex (fill_table m cols rows) 0) as [r0 H0]; [rewrite fill_table_rows; lia|].
      exists r0. split; auto. apply (fill_row_length m cols rows C1 0). assumption. }
    destruct R0 as [r0 [H0 L0]]. unfold aget at 1. rewrite H0. cbn [bind]. rewrite L0, fill_table_rows.
    replace (S rows - 1) with rows by lia.
    destruct (score_iter_trace m cols rows C1 (cols - 1 + rows) (cols - 1) rows) as [tr [E1 T1]]; try lia.
    rewrite E1. cbn [bind].
    destruct (align_fold m tr [] []) as [al [us [E2 [INJ SND]]]].
    { intros s Hs Hm. apply (trace_match m cols rows C1 _ _ _ s T1 Hs Hm). }
    { intros p v H. discriminate. }
    { intros p1 p2 v H. discriminate. }
    rewrite E2. cbn [bind].
    assert (ND : NoDup (map fst al)).
    { apply (align_fold_nodup m tr ([], []) (al, us) E2). constructor. }
    assert (INF : forall p v, dget Nat.eqb p al = Some v -> exists s t, In s tr /\ is_match s = true /\ tk_pos t = p /\
       nth_error ts (s_y s - 1) = Some t /\ 1 <= s_y s /\ In v (vertices g) /\ v <> v_start /\ v <> v_end /\
       s_x s = rk v /\ dget coord_eqb (Z.of_nat (s_y s - 1), Z.of_nat (rk v) - 1)%Z m = Some (v, t)).
    { intros p v H. destruct (SND p v H) as [Q|[s [t [S1 [S2 [S3 S4]]]]]]; [discriminate|].
      destruct (trace_match m cols rows C1 _ _ _ s T1 S1 S2) as [_ [Y X]].
      unfold get_match in S4. apply (dgetE_ok _) in S4.
      replace (Z.of_nat (s_y s) - 1)%Z with (Z.of_nat (s_y s - 1)) in S4 by lia.
      destruct (CE _ _ _ _ S4) as [D1 [D2 [D3 [D4 D5]]]]; [fold rows; lia|].
      exists s, t. repeat split; auto; try lia. rewrite <- D5. assumption. }
    exists al. split; [reflexivity|]. split; [exact ND|]. split.
    - constructor.
      + intros t v _ H. destruct (INF _ _ H) as [s [t' [_ [_ [_ [_ [_ [A [B [C _]]]]]]]]]]. auto.
      + intros t1 t2 v _ _ H1 H2. apply (INJ _ _ v); assumption.
      + apply (ro_edge _ _ _ _ RO).
      + intros t v _ H. destruct (INF _ _ H) as [s [t' [_ [_ [_ [_ [_ [Hv _]]]]]]]]. rewrite (rank_start g W rk mm l GI RO).
        destruct (Nat.eq_dec v v_end) as [->|N]; [lia|].
        pose proof (rank_le_end g W rk mm l GI RO NE v Hv N). lia.
      + rewrite (rank_start g W rk mm l GI RO). pose proof cols_eq. fold cols in H. lia.
      + assert (PS : forall i j t1 t2, nth_error ts i = Some t1 -> nth_error ts j = Some t2 -> tk_pos t1 = tk_pos t2 -> i = j).
        { intros i j t1 t2 H1 H2 E. assert (N : NoDup (map tk_pos ts)) by (rewrite HP; apply seq_NoDup).
          rewrite NoDup_nth_error in N. apply N.
          - rewrite map_length. apply nth_error_Some. congruence.
          - rewrite !nth_error_map, H1, H2. simpl. congruence. }
        assert (SS : forall i j t1 t2, nth_error ts i = Some t1 -> nth_error ts j = Some t2 -> i < j ->
          forall v1 v2, dget Nat.eqb (tk_pos t1) al = Some v1 -> dget Nat.eqb (tk_pos t2) al = Some v2 -> rk v1 <= rk v2).
        { intros i j t1 t2 H1 H2 Hij v1 v2 D1 D2.
          destruct (INF _ _ D1) as [s1 [t1' [A1 [A2 [A3 [A4 [A5 [_ [_ [_ [A6 _]]]]]]]]]]].
          destruct (INF _ _ D2) as [s2 [t2' [B1 [B2 [B3 [B4 [B5 [_ [_ [_ [B6 _]]]]]]]]]]].
          pose proof (PS _ _ _ _ A4 H1 A3) as Y1. pose proof (PS _ _ _ _ B4 H2 B3) as Y2.
          pose proof (trace_sorted m cols rows C1 _ _ _ T1) as ST.
          assert (I1 : In s1 (filter is_match tr)) by (apply filter_In; auto).
          assert (I2 : In s2 (filter is_match tr)) by (apply filter_In; auto).
          rewrite <- A6, <- B6. clear - ST I1 I2 Y1 Y2 Hij A5 B5.
          induction ST as [|a L ST IH F]; [contradiction|]. rewrite Forall_forall in F.
          destruct I1 as [->|I1], I2 as [->|I2]; auto.
          - apply F in I2. lia.
          - apply F in I1. lia. }
        apply StronglySorted_of_nth_error. intros i j t1 t2 Hij H1 H2. apply (SS i j t1 t2 H1 H2 Hij).
    - intros p v H. assert (D : dget Nat.eqb p al = Some v) by (apply (In_dget _ nat_eqb_ok); assumption).
      destruct (INF _ _ D) as [s [t [A1 [A2 [A3 [A4 [A5 [_ [_ [_ [A6 A7]]]]]]]]]]]. exists (s_y s - 1), t. auto.
  Qed.
End Traceback.

(** ** Dictionaries filled by repeated assignment *)
Definition fill (l : list (nat * vid)) (d : list (nat * vid)) : list (nat * vid) :=
  fold_left (fun d '(p, v) => dset Nat.eqb p v d) l d.

Lemma dset_In : forall (k : nat) (v : vid) d k' v', In (k', v') (dset Nat.eqb k v d) -> (k' = k /\ v' = v) \/ In (k', v') d.
Proof.
  induction d as [|[k1 v1] d IH]; simpl; intros k' v' H.
  - destruct H as [H|[]]. injection H as <- <-. auto.
  - destruct (k =? k1) eqn:E.
    + simpl in H. destruct H as [H|H]; [left; injection H as <- <-; apply Nat.eqb_eq in E; auto|auto].
    + simpl in H. destruct H as [H|H]; [auto|]. apply IH in H as [H|H]; auto.
Qed.

Lemma fill_In : forall l d k v, In (k, v) (fill l d) -> In (k, v) l \/ In (k, v) d.
Proof.
  induction l as [|[p w] l IH]; simpl; intros d k v H; [auto|]. apply IH in H as [H|H]; auto.
  apply dset_In in H as [[-> ->]|H]; auto.
Qed.

Lemma fill_key : forall l d k, In k (map fst l) \/ In k (map fst d) -> In k (map fst (fill l d)).
Proof.
  induction l as [|[p w] l IH]; simpl; intros d k H; [tauto|]. apply IH.
  rewrite (dset_In_key _ nat_eqb_ok). destruct H as [[H|H]|H]; auto.
Qed.

Lemma fill_new : forall l d, NoDup (map fst l) -> (forall k, In k (map fst l) -> ~ In k (map fst d)) -> fill l d = d ++ l.
Proof.
  induction l as [|[p w] l IH]; intros d N D; simpl; [symmetry; apply app_nil_r|]. simpl in N. inversion N; subst.
  rewrite (dset_new _ nat_eqb_ok) by (apply D; left; reflexivity). fold (fill l (d ++ [(p, w)])). rewrite IH; auto.
  - rewrite <- app_assoc. reflexivity.
  - intros k Hk C. rewrite map_app in C. apply in_app_or in C as [C|[<-|[]]].
    + apply (D k); [right; assumption|assumption].
    + contradiction.
Qed.
Lemma filter_true : forall {A} (l : list A), filter (fun _ => true) l = l.
Proof. induction l; simpl; congruence. Qed.
Lemma map_fst_combine : forall {A B} (a : list A) (b : list B), length a <= length b -> map fst (combine a b) = a.
Proof. induction a; intros [|y b] L; simpl in *; try lia; auto. f_equal. apply IHa. lia. Qed.

Lemma assign_nth : forall aligned ts nx i t v, nth_error ts i = Some t -> dget Nat.eqb (tk_pos t) aligned = Some v ->
  nth_error (assign aligned nx ts) i = Some v.
Proof.
  induction ts as [|a ts IH]; intros nx i t v H D; [destruct i; discriminate|]. destruct i as [|i]; simpl in *.
  - injection H as ->. rewrite D. reflexivity.
  - destruct (dget Nat.eqb (tk_pos a) aligned); simpl; apply IH with t; auto.
Qed.

Lemma steps_nth : forall ts path v t, length path = length ts ->
  (In (v, [t]) (steps ts path) <-> exists i, nth_error ts i = Some t /\ nth_error path i = Some v).
Proof.
  unfold steps. induction ts as [|a ts IH]; intros path v t L; destruct path as [|w path]; try discriminate; simpl.
  - split; [contradiction|]. intros [i [H _]]. destruct i; discriminate.
  - rewrite IH by (simpl in L; lia). split.
    + intros [H|[i [H1 H2]]]; [injection H as -> ->; exists 0; auto|exists (S i); auto].
    + intros [[|i] [H1 H2]]; simpl in *; [left; congruence|right; eauto].
Qed.

Lemma steps_single : forall ts path v l, In (v, l) (steps ts path) -> exists t, l = [t] /\ In t ts.
Proof.
  intros ts path v l H. unfold steps in H. apply in_combine_r in H. apply in_map_iff in H as [t [<- H]]. eauto.
Qed.

Lemma steps_tokens : forall ts path, length path = length ts -> flat_map snd (steps ts path) = ts.
Proof.
  unfold steps. induction ts as [|a ts IH]; intros path L; destruct path as [|w path]; try discriminate; auto.
  simpl. f_equal. apply IH. simpl in L. lia.
Qed.

Lemma combine_nth_In : forall (ts : list token) (path : list vid) p v,
  In (p, v) (combine (map tk_pos ts) path) -> exists i t, nth_error ts i = Some t /\ nth_error path i = Some v /\ tk_pos t = p.
Proof.
  induction ts as [|a ts IH]; intros path p v H; [contradiction|]. destruct path as [|w path]; [contradiction|].
  destruct H as [H|H].
  - injection H as <- <-. exists 0, a. auto.
  - apply IH in H as [i [t H]]. exists (S i), t. auto.
Qed.

(** ** The invariant *)
Definition path_for (iw : iwitness) (wp : wpath) : Prop :=
  fst wp = iw_sigil iw /\ exists path, length path = length (iw_toks iw) /\ snd wp = steps (iw_toks iw) path.

(** A token was matched with the token at [p1], on the vertex [v]. *)
Definition matched (filt : option props_filter) (ti : tindex) (sg : str) (W : list wpath) (v : vid) (t : token) : Prop :=
  exists p1 t1, at_vertex W p1 v /\ nth_error (ti_array ti) p1 = Some t1 /\ tk_str t1 = tk_str t /\ p1 < tk_pos t /\
    filter_passed filt (ti_array ti) sg p1 (tk_pos t).

Record al_inv (filt : option props_filter) (ti : tindex) (done : list iwitness) (st : astate) (W : list wpath) : Prop := {
  al_graph : graph_of (a_graph st) W;
  al_paths : Forall2 path_for done W;
  al_varr_len : length (a_varr st) = length (ti_array ti);
  al_varr : forall p v, nth_error (a_varr st) p = Some (Some v) <-> at_vertex W p v;
  al_p2v : forall p v, In (p, v) (a_p2v st) -> at_vertex W p v;
  al_t2v : forall p v, In (p, v) (a_t2v st) -> at_vertex W p v;
  al_label : forall wp v t, In wp W -> In (v, [t]) (snd wp) ->
    exists vx, dget Nat.eqb v (g_verts (a_graph st)) = Some vx /\ v_label vx = tk_str t;
  al_matched : forall W1 wp W2 v t, W = W1 ++ wp :: W2 -> In (v, [t]) (snd wp) ->
    (forall wp', In wp' W1 -> ~ In v (map fst (snd wp'))) \/ matched filt ti (fst wp) W1 v t
}.

Section Step.
  Variables (c : collation) (ti : tindex) (filt : option props_filter).
  Hypothesis IX : index_ok c ti.
  Hypothesis TX : index_text_ok ti.
  Hypothesis SG : ~ In [] (map w_sigil c).

  Lemma wit_sigil_nonempty : forall iw, In iw (ti_wits ti) -> iw_sigil iw <> [].
  Proof.
    intros iw H C. apply SG. rewrite <- (stamped_sigla c 0), <- (ix_wits _ _ IX), <- C. apply in_map. assumption.
  Qed.

  Lemma Forall2_In_r : forall {A B} (R : A -> B -> Prop) l1 l2 b, Forall2 R l1 l2 -> In b l2 -> exists a, In a l1 /\ R a b.
  Proof.
    intros A B R l1 l2 b F. induction F; intros H0; [contradiction|]. destruct H0 as [<-|H0].
    - exists x. simpl. auto.
    - destruct (IHF H0) as [a [H1 H2]]. exists a. simpl. auto.
  Qed.
  Lemma Forall2_In_l : forall {A B} (R : A -> B -> Prop) l1 l2 a, Forall2 R l1 l2 -> In a l1 -> exists b, In b l2 /\ R a b.
  Proof.
    intros A B R l1 l2 b F. induction F; intros H0; [contradiction|]. destruct H0 as [<-|H0].
    - exists y. simpl. auto.
    - destruct (IHF H0) as [a [H1 H2]]. exists a. simpl. auto.
  Qed.

  Lemma paths_sigla : forall done W, Forall2 path_for done W -> map fst W = map iw_sigil done.
  Proof. intros done W F. induction F as [|iw wp d W0 [H _] F IH]; simpl; congruence. Qed.

  Section Paths.
    Variables (done rest : list iwitness) (W : list wpath).
    Hypothesis DW : ti_wits ti = done ++ rest.
    Hypothesis PF : Forall2 path_for done W.

    Lemma done_In : forall iw, In iw done -> In iw (ti_wits ti).
    Proof. intros. rewrite DW. apply in_or_app. auto. Qed.

    (** A position on a vertex is the position of a token of a processed witness. *)
    Lemma at_vertex_tok : forall p v, at_vertex W p v -> exists iw t, In iw done /\ In t (iw_toks iw) /\ tk_pos t = p /\
      nth_error (ti_array ti) p = Some t /\ exists wp, In wp W /\ In (v, [t]) (snd wp).
    Proof.
      intros p v [wp [t [A [B C]]]]. destruct (Forall2_In_r _ _ _ _ PF A) as [iw [D [E [path [F G]]]]].
      rewrite G in B. destruct (steps_single _ _ _ _ B) as [t' [Q1 Q2]]. injection Q1 as <-.
      exists iw, t. split; auto. split; auto. split; auto. split.
      - rewrite <- C. apply (ix_nth c ti IX iw); auto. apply done_In. assumption.
      - exists wp. split; auto. rewrite G. assumption.
    Qed.

    Lemma at_vertex_fun : forall p v v', at_vertex W p v -> at_vertex W p v' -> v = v'.
    Proof.
      intros p v v' [wp [t [A [B C]]]] [wp' [t' [A' [B' C']]]].
      destruct (Forall2_In_r _ _ _ _ PF A) as [iw [D [E [path [F G]]]]].
      destruct (Forall2_In_r _ _ _ _ PF A') as [iw' [D' [E' [path' [F' G']]]]].
      assert (T : In t (iw_toks iw)). { rewrite G in B. destruct (steps_single _ _ _ _ B) as [? [Q1 Q2]]. congruence. }
      assert (T' : In t' (iw_toks iw')). { rewrite G' in B'. destruct (steps_single _ _ _ _ B') as [? [Q1 Q2]]. congruence. }
      destruct (ix_wit_unique c ti IX iw iw' t t') as [<- <-]; auto using done_In; [congruence|].
      assert (wp = wp').
      { assert (N : NoDup (map fst W)).
        { rewrite (paths_sigla done W PF). pose proof (ix_sigla_nodup c ti IX) as N. rewrite DW, map_app in N.
          apply NoDup_app_iff in N. tauto. }
        assert (S : fst wp = fst wp') by congruence. clear - N A A' S.
        induction W as [|a L IH]; [contradiction|]. simpl in N. inversion N; subst.
        destruct A as [->|A], A' as [->|A']; auto.
        - exfalso. apply H1. rewrite S. apply in_map. assumption.
        - exfalso. apply H1. rewrite <- S. apply in_map. assumption. }
      subst wp'. rewrite G in B, B'. apply steps_nth in B as [i [I1 I2]]; auto. apply steps_nth in B' as [j [J1 J2]]; auto.
      destruct (ix_consecutive c ti IX iw (done_In _ D)) as [p0 [Q _]].
      assert (N : NoDup (map tk_pos (iw_toks iw))) by (rewrite Q; apply seq_NoDup).
      assert (i = j).
      { rewrite NoDup_nth_error in N. apply N; [rewrite map_length; apply nth_error_Some; congruence|].
        rewrite !nth_error_map, I1, J1. reflexivity. }
      congruence.
    Qed.

    Lemma tok_at_vertex : forall iw t, In iw done -> In t (iw_toks iw) -> exists v, at_vertex W (tk_pos t) v.
    Proof.
      intros iw t H Ht. destruct (Forall2_In_l _ _ _ _ PF H) as [wp [A [B [path [C D]]]]].
      apply In_nth_error in Ht as [i Hi].
      destruct (nth_error_lt_ex path i) as [v Hv]; [rewrite C; apply nth_error_Some; congruence|].
      exists v, wp, t. split; auto. split; auto. rewrite D. apply steps_nth; auto. eauto.
    Qed.
  End Paths.

  (** Updating the vertex array. *)
  Lemma update_varr_spec : forall d r varr0 (f : nat -> vid), (forall p, In p r -> p < length varr0) ->
    (forall p, In p r -> dget Nat.eqb p d = Some (f p)) ->
    exists varr, update_varr r d varr0 = Ok varr /\ length varr = length varr0 /\
      forall p, nth_error varr p = if existsb (Nat.eqb p) r then Some (Some (f p)) else nth_error varr0 p.
  Proof.
    intros d r. induction r as [|q r IH]; intros varr0 f L D.
    - exists varr0. repeat split; auto.
    - unfold update_varr. cbn [foldM]. unfold dgetE at 1. rewrite (D q (or_introl eq_refl)). cbn [bind].
      rewrite aset_ok by (apply L; left; reflexivity). cbn [bind].
      destruct (IH (upd varr0 q (Some (f q))) f) as [varr [E1 [E2 E3]]].
      + intros p Hp. rewrite upd_length. apply L. right. assumption.
      + intros p Hp. apply D. right. assumption.
      + exists varr. split; [exact E1|]. split; [rewrite E2; apply upd_length|]. intros p. rewrite E3. simpl.
        rewrite nth_error_upd. destruct (existsb (Nat.eqb p) r); [rewrite orb_true_r; reflexivity|].
        rewrite orb_false_r, (Nat.eqb_sym p q). destruct (q =? p) eqn:Q; auto.
        apply Nat.eqb_eq in Q. subst p. pose proof (L q (or_introl eq_refl)) as Lq. apply Nat.ltb_lt in Lq. rewrite Lq. reflexivity.
  Qed.

  Variable topo : graph -> res (list vid).
  Hypothesis TO : topo_ok topo.

  Lemma in_range_arr : forall iw p, In iw (ti_wits ti) -> In p (map tk_pos (iw_toks iw)) -> p < length (ti_array ti).
  Proof.
    intros iw p H Hp. apply in_map_iff in Hp as [t [<- Ht]]. apply nth_error_Some. rewrite (ix_nth c ti IX iw t); auto. discriminate.
  Qed.

  (** Common part of the first and the later steps: the state after merging. *)
  Lemma new_state : forall done iw rest W g g' path aligned new varr0 t2v0 p2v0 rk,
    ti_wits ti = done ++ iw :: rest -> Forall2 path_for done W ->
    graph_of g W -> align_ok g rk aligned (iw_toks iw) -> NoDup (map fst aligned) ->
    path = assign aligned (g_next g) (iw_toks iw) ->
    graph_of g' (W ++ [(iw_sigil iw, steps (iw_toks iw) path)]) ->
    new = filter (fun pv => negb (dmem Nat.eqb (fst pv) aligned)) (combine (map tk_pos (iw_toks iw)) path) ->
    (forall v vx', dget Nat.eqb v (g_verts g') = Some vx' ->
       match dget Nat.eqb v (g_verts g) with
       | Some vx => v_label vx' = v_label vx
       | None => exists t, In (t, v) (combine (iw_toks iw) path) /\ v_label vx' = tk_str t
       end) ->
    (forall p v, In (p, v) aligned -> exists y t, nth_error (iw_toks iw) y = Some t /\ tk_pos t = p /\
       matched filt ti (iw_sigil iw) W v t) ->
    length varr0 = length (ti_array ti) ->
    (forall p v, nth_error varr0 p = Some (Some v) <-> at_vertex W p v) ->
    (forall p v, In (p, v) p2v0 -> at_vertex W p v) ->
    (forall p v, In (p, v) t2v0 -> at_vertex W p v) ->
    (forall wp v t, In wp W -> In (v, [t]) (snd wp) ->
      exists vx, dget Nat.eqb v (g_verts g) = Some vx /\ v_label vx = tk_str t) ->
    (forall W1 wp W2 v t, W = W1 ++ wp :: W2 -> In (v, [t]) (snd wp) ->
      (forall wp', In wp' W1 -> ~ In v (map fst (snd wp'))) \/ matched filt ti (fst wp) W1 v t) ->
    let t2v := fill new t2v0 in
    let p2v := update_p2v p2v0 t2v aligned in
    let W' := W ++ [(iw_sigil iw, steps (iw_toks iw) path)] in
    (forall p, In p (map tk_pos (iw_toks iw)) -> exists v, dget Nat.eqb p p2v = Some v /\ at_vertex W' p v) /\
    forall d, (forall p v, In p (map tk_pos (iw_toks iw)) -> dget Nat.eqb p p2v = Some v -> dget Nat.eqb p d = Some v) ->
    exists varr, update_varr (map tk_pos (iw_toks iw)) d varr0 = Ok varr /\
      al_inv filt ti (done ++ [iw]) {| a_graph := g'; a_t2v := t2v; a_p2v := p2v; a_varr := varr |} W'.
  Proof.
    intros done iw rest W g g' path aligned new varr0 t2v0 p2v0 rk DW PF GI AO NDA EP GI' EN LB AM VL VA P2 T2 LA MA t2v p2v W'.
    assert (Hiw : In iw (ti_wits ti)) by (rewrite DW; apply in_or_app; right; left; reflexivity).
    set (ts := iw_toks iw) in *.
    assert (LP : length path = length ts) by (rewrite EP; apply assign_length).
    assert (PF' : Forall2 path_for (done ++ [iw]) W').
    { apply Forall2_app; auto. constructor; auto. split; [reflexivity|]. exists path. auto. }
    assert (DW' : ti_wits ti = (done ++ [iw]) ++ rest) by (rewrite DW, <- app_assoc; reflexivity).
    assert (AV : forall p v, at_vertex W p v -> at_vertex W' p v).
    { intros p v [wp [t [A B]]]. exists wp, t. split; auto. apply in_or_app. auto. }
    assert (AN : forall i t v, nth_error ts i = Some t -> nth_error path i = Some v -> at_vertex W' (tk_pos t) v).
    { intros i t v H1 H2. exists (iw_sigil iw, steps ts path), t. split; [apply in_or_app; right; left; reflexivity|].
      split; auto. simpl. apply steps_nth; auto. eauto. }
    assert (AA : forall p v, In (p, v) aligned -> at_vertex W' p v).
    { intros p v H. destruct (AM p v H) as [y [t [Y1 [Y2 _]]]]. rewrite <- Y2. apply (AN y t v); auto.
      rewrite EP. apply assign_nth with t; auto. apply (In_dget _ nat_eqb_ok); auto. rewrite Y2. assumption. }
    assert (AT : forall p v, In (p, v) t2v -> at_vertex W' p v).
    { intros p v H. apply fill_In in H as [H|H]; [|auto]. rewrite EN in H. apply filter_In in H as [H _].
      apply combine_nth_In in H as [i [t [I1 [I2 <-]]]]. eauto. }
    assert (AP : forall p v, In (p, v) p2v -> at_vertex W' p v).
    { intros p v H. unfold p2v, update_p2v in H. apply fill_In in H as [H|H]; auto. apply fill_In in H as [H|H]; auto. }
    assert (KP : forall p, In p (map tk_pos ts) -> exists v, dget Nat.eqb p p2v = Some v /\ at_vertex W' p v).
    { intros p Hp. assert (K : In p (map fst p2v)).
      { unfold p2v, update_p2v. apply fill_key. apply in_map_iff in Hp as [t [<- Ht]].
        destruct (dmem Nat.eqb (tk_pos t) aligned) eqn:Q; [left; apply (dmem_In _ nat_eqb_ok); assumption|right].
        apply fill_key. left. apply fill_key. left. rewrite EN.
        apply In_nth_error in Ht as [i Hi].
        destruct (nth_error_lt_ex path i) as [v Hv]; [rewrite LP; apply nth_error_Some; congruence|].
        apply in_map_iff. exists (tk_pos t, v). split; auto. apply filter_In. simpl. rewrite Q. split; auto.
        apply nth_error_In with i. clear - Hi Hv. revert path i Hi Hv.
        induction ts as [|a l IH]; intros [|w path] [|i] Hi Hv; try discriminate; simpl in *.
        - congruence.
        - auto. }
      destruct (dget_Some_key _ nat_eqb_ok _ _ K) as [v D]. exists v. split; auto. apply AP. apply (dget_In _ nat_eqb_ok). assumption. }
    split; [exact KP|]. intros d Hd.
    set (f := fun p => match dget Nat.eqb p p2v with Some v => v | None => 0 end).
    destruct (update_varr_spec d (map tk_pos ts) varr0 f) as [varr [E1 [E2 E3]]].
    { intros p Hp. rewrite VL. apply (in_range_arr iw p Hiw Hp). }
    { intros p Hp. destruct (KP p Hp) as [v [D _]]. unfold f. rewrite D. apply Hd; assumption. }
    exists varr. split; [exact E1|]. constructor; cbn [a_graph a_t2v a_p2v a_varr].
    - exact GI'.
    - exact PF'.
    - congruence.
    - intros p v. rewrite E3. destruct (existsb (Nat.eqb p) (map tk_pos ts)) eqn:Q.
      + apply (existsb_eqb _ nat_eqb_ok) in Q. destruct (KP p Q) as [w [D A]]. unfold f. rewrite D. split.
        * intros H. injection H as <-. assumption.
        * intros H. do 2 f_equal. apply (at_vertex_fun (done ++ [iw]) rest W' DW' PF' p); assumption.
      + rewrite VA. split; [apply AV|]. intros [wp [t [A [B C]]]]. apply in_app_or in A as [A|[<-|[]]].
        * exists wp, t. auto.
        * exfalso. simpl in B. destruct (steps_single _ _ _ _ B) as [t' [Q1 Q2]]. injection Q1 as <-.
          assert (In p (map tk_pos ts)) by (rewrite <- C; apply in_map; assumption).
          apply (existsb_eqb _ nat_eqb_ok) in H. congruence.
    - exact AP.
    - exact AT.
    - intros wp v t A B. assert (HV : In v (vertices g')) by (apply (gi_on _ _ GI' wp v [t]); assumption).
      destruct (dget_Some_key _ nat_eqb_ok _ _ HV) as [vx' D]. exists vx'. split; auto. pose proof (LB v vx' D) as L.
      apply in_app_or in A as [A|[<-|[]]].
      + destruct (LA wp v t A B) as [vx [D' E]]. rewrite D' in L. congruence.
      + simpl in B. destruct (dget Nat.eqb v (g_verts g)) as [vx|] eqn:Dg.
        * apply steps_nth in B as [i [I1 I2]]; auto.
          assert (AL : dget Nat.eqb (tk_pos t) aligned = Some v).
          { destruct (dget Nat.eqb (tk_pos t) aligned) as [w|] eqn:Da.
            - pose proof (assign_nth aligned ts (g_next g) i t w I1 Da) as X. rewrite <- EP in X. congruence.
            - exfalso. assert (Lv : v < g_next g).
              { apply (gi_bound _ _ GI). apply (dget_In _ nat_eqb_ok) in Dg. apply (in_map fst) in Dg. assumption. }
              assert (G : forall ts nx i t v, nth_error ts i = Some t -> dget Nat.eqb (tk_pos t) aligned = None ->
                 nth_error (assign aligned nx ts) i = Some v -> nx <= v).
              { clear. induction ts as [|a l IH]; intros nx i t v H1 H2 H3; [destruct i; discriminate|]. destruct i as [|i]; simpl in *.
                - injection H1 as ->. rewrite H2 in H3. simpl in H3. injection H3 as <-. lia.
                - destruct (dget Nat.eqb (tk_pos a) aligned); simpl in H3; apply IH with (t := t) in H3; auto; lia. }
              rewrite EP in I2. pose proof (G ts (g_next g) i t v I1 Da I2). lia. }
          apply (dget_In _ nat_eqb_ok) in AL. destruct (AM _ _ AL) as [y [t2 [Y1 [Y2 [p1 [t1 [M1 [M2 [M3 _]]]]]]]]].
          destruct (at_vertex_tok done (iw :: rest) W DW PF p1 v M1) as [iw1 [t1' [_ [_ [_ [N1 [wp1 [N2 N3]]]]]]]].
          assert (t1' = t1) by congruence. subst t1'.
          destruct (LA wp1 v t1 N2 N3) as [vx1 [D1 D2]]. rewrite Dg in D1. injection D1 as <-.
          assert (t2 = t).
          { destruct (ix_wit_unique c ti IX iw iw t2 t) as [_ X]; auto; [apply nth_error_In with y; assumption|apply nth_error_In with i; assumption]. }
          subst t2. congruence.
        * destruct L as [t0 [L1 L2]]. rewrite L2.
          (* the vertex is new: its token is the one on it *)
          apply steps_nth in B as [i [I1 I2]]; auto.
          assert (ND : NoDup path).
          { pose proof (gi_simple _ _ GI' (iw_sigil iw, steps ts path)) as N. unfold W' in N. 
            assert (X : In (iw_sigil iw, steps ts path) (W ++ [(iw_sigil iw, steps ts path)])) by (apply in_or_app; right; left; reflexivity).
            apply N in X. unfold chain in X. cbn [snd] in X. rewrite steps_fst in X by assumption.
            inversion X; subst. apply NoDup_app_iff in H2. tauto. }
          apply In_nth_error in L1 as [j Hj].
          assert (HH : nth_error ts j = Some t0 /\ nth_error path j = Some v).
          { clear - Hj. revert path j Hj. induction ts as [|a l IH]; intros [|w path] [|j] Hj; try discriminate; simpl in *.
            - injection Hj as -> ->. auto.
            - auto. }
          destruct HH as [J1 J2]. assert (i = j).
          { rewrite NoDup_nth_error in ND. apply ND; [apply nth_error_Some; congruence|congruence]. }
          subst j. congruence.
    - intros W1 wp W2 v t E B. unfold W' in E.
      destruct W2 as [|x W2].
      + apply app_inj_tail in E as [<- <-]. simpl in B. apply steps_nth in B as [i [I1 I2]]; auto.
        destruct (dget Nat.eqb (tk_pos t) aligned) as [w|] eqn:Da.
        * right. pose proof (assign_nth aligned ts (g_next g) i t w I1 Da) as X. rewrite <- EP in X.
          assert (w = v) by congruence. subst w. apply (dget_In _ nat_eqb_ok) in Da.
          destruct (AM _ _ Da) as [y [t2 [Y1 [Y2 Y3]]]].
          assert (t2 = t).
          { destruct (ix_wit_unique c ti IX iw iw t2 t) as [_ X']; auto; [apply nth_error_In with y; assumption|apply nth_error_In with i; assumption]. }
          subst t2. assumption.
        * left. intros wp' Hwp' C. apply in_map_iff in C as [[v' l'] [C1 C2]]. simpl in C1. subst v'.
          assert (Lv : v < g_next g) by (apply (gi_bound _ _ GI); apply (gi_on _ _ GI wp' v l'); assumption).
          assert (G : forall ts nx i t v, nth_error ts i = Some t -> dget Nat.eqb (tk_pos t) aligned = None ->
                 nth_error (assign aligned nx ts) i = Some v -> nx <= v).
          { clear. induction ts as [|a l IH]; intros nx i t v H1 H2 H3; [destruct i; discriminate|]. destruct i as [|i]; simpl in *.
            - injection H1 as ->. rewrite H2 in H3. simpl in H3. injection H3 as <-. lia.
            - destruct (dget Nat.eqb (tk_pos a) aligned); simpl in H3; apply IH with (t := t) in H3; auto; lia. }
          rewrite EP in I2. pose proof (G ts (g_next g) i t v I1 Da I2). lia.
      + destruct (exists_last (l := x :: W2)) as [W3 [y EW]]; [discriminate|]. rewrite EW in E.
        change (W1 ++ wp :: W3 ++ [y]) with (W1 ++ (wp :: W3) ++ [y]) in E. rewrite app_assoc in E.
        apply app_inj_tail in E as [E _]. apply (MA W1 wp W3 v t E B).
  Qed.

  Lemma first_step_inv : forall iw rest, ti_wits ti = iw :: rest ->
    exists st path, first_step ti iw = Ok st /\ al_inv filt ti [iw] st [(iw_sigil iw, steps (iw_toks iw) path)].
  Proof.
    intros iw rest E. assert (Hiw : In iw (ti_wits ti)) by (rewrite E; left; reflexivity).
    destruct (ix_consecutive c ti IX iw Hiw) as [p0 [HP NEt]].
    assert (NDp : NoDup (map tk_pos (iw_toks iw))) by (rewrite HP; apply seq_NoDup).
    assert (AO : align_ok empty_graph (fun v => v) [] (iw_toks iw)).
    { constructor.
      - intros t v _ H. discriminate.
      - intros t1 t2 v _ _ H. discriminate.
      - intros u v H. destruct H.
      - intros t v _ H. discriminate.
      - unfold v_start, v_end. lia.
      - apply StronglySorted_of_nth_error. intros i j a b _ _ _ v1 v2 H. discriminate. }
    destruct (merge_graph_of empty_graph [] (iw_sigil iw) (iw_toks iw) [] (fun v => v) empty_graph_of)
      as [g' [new [M1 [M2 [M3 [M4 M5]]]]]]; auto using wit_sigil_nonempty.
    set (path := assign [] (g_next empty_graph) (iw_toks iw)) in *.
    assert (NDn : NoDup (map fst new)).
    { rewrite M3. rewrite (filter_ext_In _ (fun _ => true)); [|intros x _; reflexivity].
      rewrite filter_true. rewrite map_fst_combine; [assumption|]. rewrite map_length. unfold path. rewrite assign_length. lia. }
    destruct (new_state [] iw rest [] empty_graph g' path [] new (repeat None (length (ti_array ti))) [] [] (fun v => v))
      as [K S]; auto using empty_graph_of.
    { constructor. }
    { intros p v []. }
    { apply repeat_length. }
    { intros p v. split.
      - intros H. apply nth_error_In in H. apply repeat_spec in H. discriminate.
      - intros [wp [t [[] _]]]. }
    { intros p v []. }
    { intros p v []. }
    { intros wp v t []. }
    { intros W1 wp W2 v t H. destruct W1; discriminate. }
    rewrite fill_new in * by (auto; intros ? _ []).
    simpl app in *.
    destruct (S (update_p2v [] new [])) as [varr [V1 V2]]; auto.
    eexists. exists path. split; [|exact V2]. unfold first_step. rewrite M1. cbn [bind].
    rewrite (ix_range c ti IX iw Hiw). cbn [bind]. rewrite V1. reflexivity.
  Qed.

  (** The entries of the match cube of the witness [iw]. *)
  Lemma cube_facts : forall done iw rest st W rk mm l start m, ti_wits ti = done ++ iw :: rest ->
    al_inv filt ti done st W -> rank_ok (a_graph st) rk mm l ->
    start_token_position ti (iw_sigil iw) = Ok start ->
    map tk_pos (iw_toks iw) = seq start (length (iw_toks iw)) ->
    match_cube ti (iw_sigil iw) (a_varr st) (by_vertex (ranking_for rk mm l)) filt = Ok m ->
    forall y x v t, dget coord_eqb (Z.of_nat y, x) m = Some (v, t) -> y < length (iw_toks iw) ->
      nth_error (iw_toks iw) y = Some t /\ In v (vertices (a_graph st)) /\ v <> v_start /\ v <> v_end /\
      x = (Z.of_nat (rk v) - 1)%Z /\ matched filt ti (iw_sigil iw) W v t.
  Proof.
    intros done iw rest st W rk mm l start m DW AL RO Hs HP Hm y x v t D L.
    assert (Hk : nth_error (ti_wits ti) (length done) = Some iw).
    { rewrite DW, nth_error_app2, Nat.sub_diag by lia. reflexivity. }
    assert (Hiw : In iw (ti_wits ti)) by (apply nth_error_In with (length done); assumption).
    destruct (cube_sound c ti IX TX start (a_varr st) _ filt _ iw Hk Hs m Hm _ _ D)
      as [p [q [rk0 [t' [E1 [E2 [E3 [E4 [E5 [E6 [E7 E8]]]]]]]]]]].
    cbn [fst snd] in *. injection E7 as E7 E7'.
    assert (q = start + y) by lia. subst q.
    destruct (ix_tok_nth c ti IX iw start y Hiw HP L) as [t2 [T1 [T2 T3]]].
    assert (t2 = t) by congruence. subst t2.
    apply (al_varr _ _ _ _ _ AL) in E5. 
    destruct (by_vertex_inv _ _ _ _ _ _ RO E6) as [Hv Hr].
    split; [assumption|]. split; [assumption|].
    assert (IN : v <> v_start /\ v <> v_end).
    { destruct E5 as [wp [u [A [B C]]]]. pose proof (gi_simple _ _ (al_graph _ _ _ _ _ AL) wp A) as N. unfold chain in N.
      apply (in_map fst) in B. simpl in B. inversion N; subst. split.
      - intros ->. apply H1. apply in_or_app. auto.
      - intros ->. apply NoDup_app_iff in H2 as [_ [_ H2]]. apply (H2 v_end B). left. reflexivity. }
    destruct IN. split; [assumption|]. split; [assumption|]. split; [subst; lia|].
    exists p, t'. split; [assumption|]. split; [assumption|]. split; [congruence|]. rewrite T2. split; [lia|assumption].
  Qed.

  Lemma wit_fold : forall d r acc (f : nat -> vid), (forall p, In p r -> dget Nat.eqb p d = Some (f p)) ->
    exists w, foldM (fun d0 p => v <- dgetE Nat.eqb p d ;; Ok (dset Nat.eqb p v d0)) r acc = Ok w /\
      forall p, dget Nat.eqb p w = if existsb (Nat.eqb p) r then Some (f p) else dget Nat.eqb p acc.
  Proof.
    intros d r. induction r as [|q r IH]; intros acc f H.
    - exists acc. split; reflexivity.
    - cbn [foldM]. unfold dgetE at 1. rewrite (H q (or_introl eq_refl)). cbn [bind].
      destruct (IH (dset Nat.eqb q (f q) acc) f) as [w [E1 E2]]; [intros p Hp; apply H; right; assumption|].
      exists w. split; [exact E1|]. intros p. rewrite E2. cbn [existsb].
      destruct (existsb (Nat.eqb p) r); [rewrite orb_true_r; reflexivity|]. rewrite orb_false_r, (dget_set _ nat_eqb_ok), (Nat.eqb_sym p q).
      destruct (q =? p) eqn:Q; auto. apply Nat.eqb_eq in Q. subst p. reflexivity.
  Qed.

  Lemma next_step_inv : forall done iw rest st W, ti_wits ti = done ++ iw :: rest -> W <> [] ->
    al_inv filt ti done st W ->
    exists rk mm l start, ranking_of topo (a_graph st) = Ok (ranking_for rk mm l) /\ rank_ok (a_graph st) rk mm l /\
      start_token_position ti (iw_sigil iw) = Ok start /\
      map tk_pos (iw_toks iw) = seq start (length (iw_toks iw)) /\
      forall m, match_cube ti (iw_sigil iw) (a_varr st) (by_vertex (ranking_for rk mm l)) filt = Ok m ->
      exists aligned, let path := assign aligned (g_next (a_graph st)) (iw_toks iw) in
        align_matching_tokens m (fill_table m (mm - 1) (length (iw_toks iw))) = Ok aligned /\
        exists st', next_step topo filt false ti st iw = Ok st' /\
        al_inv filt ti (done ++ [iw]) st' (W ++ [(iw_sigil iw, steps (iw_toks iw) path)]).
  Proof.
    intros done iw rest st W DW NE AL. set (g := a_graph st) in *. pose proof (al_graph _ _ _ _ _ AL) as GI.
    assert (Hiw : In iw (ti_wits ti)) by (rewrite DW; apply in_or_app; right; left; reflexivity).
    destruct (ranking_spec topo g W TO GI) as [rk [mm [l [T [RK RO]]]]].
    destruct (ix_start c ti IX iw Hiw) as [start [Hs [HP NEt]]].
    exists rk, mm, l, start. split; [assumption|]. split; [assumption|]. split; [assumption|]. split; [assumption|].
    intros m Hm. pose proof (cube_facts done iw rest st W rk mm l start m DW AL RO Hs HP Hm) as CF.
    destruct (align_result g W rk mm l (iw_toks iw) start m GI RO NE HP) as [aligned [A1 [A2 [A3 A4]]]].
    { intros y x v t D L. destruct (CF y x v t D L) as [F1 [F2 [F3 [F4 [F5 _]]]]]. auto. }
    exists aligned. intros path. split; [assumption|].
    assert (NDp : NoDup (map tk_pos (iw_toks iw))) by (rewrite HP; apply seq_NoDup).
    destruct (merge_graph_of g W (iw_sigil iw) (iw_toks iw) aligned rk GI) as [g' [new [M1 [M2 [M3 [M4 M5]]]]]];
      auto using wit_sigil_nonempty.
    { rewrite (paths_sigla done W (al_paths _ _ _ _ _ AL)). pose proof (ix_sigla_nodup c ti IX) as N.
      rewrite DW, map_app in N. apply NoDup_app_iff in N as [_ [_ N]]. intro C. apply (N _ C). left. reflexivity. }
    fold path in M2, M3, M5.
    destruct (new_state done iw rest W g g' path aligned new (a_varr st) (a_t2v st) (a_p2v st) rk) as [K S]; auto.
    { apply (al_paths _ _ _ _ _ AL). }
    { intros p v H. destruct (A4 p v H) as [y [t [Y1 [Y2 Y3]]]]. exists y, t. split; auto. split; auto.
      apply (CF y _ v t Y3). apply nth_error_Some. congruence. }
    { apply (al_varr_len _ _ _ _ _ AL). }
    { apply (al_varr _ _ _ _ _ AL). }
    { apply (al_p2v _ _ _ _ _ AL). }
    { apply (al_t2v _ _ _ _ _ AL). }
    { apply (al_label _ _ _ _ _ AL). }
    { apply (al_matched _ _ _ _ _ AL). }
    set (p2v := update_p2v (a_p2v st) (fill new (a_t2v st)) aligned) in *.
    set (f := fun p => match dget Nat.eqb p p2v with Some v => v | None => 0 end).
    destruct (wit_fold p2v (map tk_pos (iw_toks iw)) [] f) as [w [F1 F2]].
    { intros p Hp. destruct (K p Hp) as [v [D _]]. unfold f. rewrite D. reflexivity. }
    destruct (S w) as [varr [V1 V2]].
    { intros p v Hp D. rewrite F2. pose proof Hp as Hp'. apply (existsb_eqb _ nat_eqb_ok) in Hp'. rewrite Hp'. unfold f. rewrite D. reflexivity. }
    eexists. split; [|exact V2]. unfold next_step. fold g. rewrite RK. cbn [bind].
    rewrite (ranks_ok g rk mm l RO). cbn [bind]. rewrite (rank_count g rk mm l RO), Hm. cbn [bind].
    rewrite A1. cbn [bind]. rewrite M1. cbn [bind].
    rewrite (ix_range c ti IX iw Hiw). cbn [bind]. fold (fill new (a_t2v st)). fold p2v. rewrite F1. cbn [bind].
    rewrite V1. reflexivity.
  Qed.

  Lemma next_step_cube : forall st iw st' rk, ranking_of topo (a_graph st) = Ok rk ->
    next_step topo filt false ti st iw = Ok st' -> exists m, match_cube ti (iw_sigil iw) (a_varr st) (by_vertex rk) filt = Ok m.
  Proof.
    intros st iw st' rk E H. unfold next_step in H. rewrite E in H. cbn [bind] in H.
    apply bind_ok in H as [ranks [_ H]]. apply bind_ok in H as [m [H _]]. eauto.
  Qed.

  Lemma align_rest_inv : forall rest done st W st', ti_wits ti = done ++ rest -> W <> [] ->
    al_inv filt ti done st W -> foldM (next_step topo filt false ti) rest st = Ok st' ->
    exists W', al_inv filt ti (done ++ rest) st' W' /\ W' <> [].
  Proof.
    induction rest as [|iw rest IH]; intros done st W st' DW NE AL H.
    - cbn [foldM] in H. injection H as <-. exists W. rewrite app_nil_r. auto.
    - cbn [foldM] in H. apply bind_ok in H as [st1 [H1 H2]].
      destruct (next_step_inv done iw rest st W DW NE AL) as [rk [mm [l [start [RK [RO [Hs [HP N]]]]]]]].
      destruct (next_step_cube st iw st1 _ RK H1) as [m Hm]. destruct (N m Hm) as [al [_ [st2 [N1 N2]]]].
      rewrite H1 in N1. injection N1 as <-.
      replace (done ++ iw :: rest) with ((done ++ [iw]) ++ rest) in * by (rewrite <- app_assoc; reflexivity).
      apply (IH _ st1 _ st' DW) in N2; [assumption|destruct W; discriminate|assumption].
  Qed.

  Theorem align_all_inv : forall st, align_all topo filt false ti = Ok st ->
    exists W, al_inv filt ti (ti_wits ti) st W /\ W <> [].
  Proof.
    intros st H. unfold align_all in H. destruct (ti_wits ti) as [|iw rest] eqn:E; [discriminate|].
    destruct (first_step_inv iw rest E) as [st1 [path [F1 F2]]]. rewrite F1 in H. cbn [bind] in H.
    rewrite <- E. change (iw :: rest) with ([iw] ++ rest) in E. rewrite E.
    eapply align_rest_inv; eauto. discriminate.
  Qed.

  (** If the alignment succeeds, no token has been confused with a marker. *)
  Lemma align_rest_cubes : forall rest1 done st W st' iw rest2, ti_wits ti = done ++ rest1 ++ iw :: rest2 -> W <> [] ->
    al_inv filt ti done st W -> foldM (next_step topo filt false ti) (rest1 ++ iw :: rest2) st = Ok st' ->
    exists st1 W1 rank start m, al_inv filt ti (done ++ rest1) st1 W1 /\ start_token_position ti (iw_sigil iw) = Ok start /\
      match_cube ti (iw_sigil iw) (a_varr st1) rank filt = Ok m.
  Proof.
    induction rest1 as [|iw1 rest1 IH]; intros done st W st' iw rest2 DW NE AL H; cbn [app foldM] in H; apply bind_ok in H as [st1 [H1 H2]].
    - destruct (next_step_inv done iw rest2 st W DW NE AL) as [rk [mm [l [start [RK [RO [Hs [HP N]]]]]]]].
      destruct (next_step_cube st iw st1 _ RK H1) as [m Hm]. rewrite app_nil_r. exists st, W, (by_vertex (ranking_for rk mm l)), start, m. auto.
    - destruct (next_step_inv done iw1 (rest1 ++ iw :: rest2) st W DW NE AL) as [rk [mm [l [start [RK [RO [Hs [HP N]]]]]]]].
      destruct (next_step_cube st iw1 st1 _ RK H1) as [m Hm]. destruct (N m Hm) as [al [_ [st2 [N1 N2]]]].
      rewrite H1 in N1. injection N1 as <-.
      assert (DW2 : ti_wits ti = (done ++ [iw1]) ++ rest1 ++ iw :: rest2) by (rewrite DW, <- app_assoc; reflexivity).
      replace (done ++ iw1 :: rest1) with ((done ++ [iw1]) ++ rest1) by (rewrite <- app_assoc; reflexivity).
      apply (IH _ st1 _ st' iw rest2 DW2) in N2; [assumption|destruct W; discriminate|assumption].
  Qed.

  Lemma align_cubes : forall st k iw, align_all topo filt false ti = Ok st -> nth_error (ti_wits ti) k = Some iw -> 0 < k ->
    exists st1 W1 rank start m, al_inv filt ti (firstn k (ti_wits ti)) st1 W1 /\ start_token_position ti (iw_sigil iw) = Ok start /\
      match_cube ti (iw_sigil iw) (a_varr st1) rank filt = Ok m.
  Proof.
    intros st k iw H Hk K0. unfold align_all in H. destruct (ti_wits ti) as [|iw0 rest] eqn:E; [discriminate|].
    destruct (first_step_inv iw0 rest E) as [st1 [path [F1 F2]]]. rewrite F1 in H. cbn [bind] in H.
    destruct k as [|k]; [lia|]. cbn [nth_error] in Hk. apply nth_error_split in Hk as [rest1 [rest2 [R L]]]. subst rest k.
    cbn [firstn]. rewrite firstn_app, Nat.sub_diag, firstn_O, firstn_all, app_nil_r.
    change (iw0 :: rest1) with ([iw0] ++ rest1). refine (align_rest_cubes rest1 [iw0] st1 _ st iw rest2 E _ F2 H). discriminate.
  Qed.

  Lemma tok_range : forall k iw t, nth_error (ti_wits ti) k = Some iw -> In t (iw_toks iw) ->
    start_of 0 c k <= tk_pos t /\ tk_pos t + 1 < start_of 0 c (S k).
  Proof.
    intros k iw t Hk Ht. rewrite (ix_wits _ _ IX) in Hk. destruct (stamped_start _ _ _ _ Hk) as [R1 R2].
    assert (I1 : In (tk_pos t) (seq (start_of 0 c k) (length (iw_toks iw)))) by (rewrite <- R1; apply in_map; assumption).
    apply in_seq in I1. lia.
  Qed.
  Lemma start_of_le : forall a b, a <= b -> b <= length c -> start_of 0 c a <= start_of 0 c b.
  Proof. intros a b H1 H2. destruct (Nat.eq_dec a b) as [->|N]; [lia|]. pose proof (start_of_mono c 0 a b). lia. Qed.

  Theorem align_no_clash : forall st k iw t j, align_all topo filt false ti = Ok st -> nth_error (ti_wits ti) k = Some iw -> In t (iw_toks iw) ->
    S j < length (ti_wits ti) -> j < k \/ (filt <> None /\ k < j) -> tk_str t <> marker_str j.
  Proof.
    intros st k iw t j H Hk Ht Lj CL E. pose proof (wits_length c ti IX) as WL. rewrite WL in Lj.
    assert (Lk : k < length c) by (rewrite <- WL; apply nth_error_Some; congruence).
    destruct (nth_error_lt_ex c j) as [w Hw]; [lia|].
    destruct (marker_at c ti IX j w Hw Lj) as [M1 M2]. set (p := start_of 0 c (S j) - 1) in *.
    assert (P1 : p + 1 = start_of 0 c (S j)). { assert (start_of 0 c 0 < start_of 0 c (S j)) by (apply start_of_mono; lia). unfold p. lia. }
    assert (Hiw : In iw (ti_wits ti)) by (apply nth_error_In with k; assumption).
    destruct (tok_range k iw t Hk Ht) as [T1 T2].
    assert (TA : nth_error (ti_array ti) (tk_pos t) = Some t /\ token_sigil (ti_array ti) (tk_pos t) = Ok (iw_sigil iw)).
    { apply In_nth_error in Ht as [y Hy]. destruct (ix_start c ti IX iw Hiw) as [s [S1 [S2 S3]]].
      assert (Ly : y < length (iw_toks iw)) by (apply nth_error_Some; congruence).
      destruct (ix_tok_nth c ti IX iw s y Hiw S2 Ly) as [t2 [Q1 [Q2 Q3]]]. assert (t2 = t) by congruence. subst t2.
      rewrite Q2. split; [assumption|]. rewrite Q2 in *.
      destruct (arr_cases c ti IX _ _ Q3) as [[k2 [iw2 [A [B [C D]]]]]|[k2 [iw2 [A [B [C D]]]]]].
      - rewrite D. f_equal. f_equal. apply (ix_wit_unique c ti IX iw2 iw t t); auto; [apply nth_error_In with k2; assumption|apply nth_error_In with y; assumption].
      - exfalso. assert (k2 < length c) by (rewrite <- WL; apply nth_error_Some; congruence).
        destruct (le_lt_dec k k2) as [X|X].
        + pose proof (start_of_le (S k) (S k2)). lia.
        + pose proof (start_of_le (S k2) k). lia. }
    destruct TA as [TA TS].
    destruct CL as [CL|[NF CL]].
    - destruct (align_cubes st k iw H Hk) as [st1 [W1 [rank [start [m [AL [Hs Hm]]]]]]]; [lia|].
      pose proof (start_pos c ti IX _ _ _ Hk Hs) as SP.
      assert (LE : start_of 0 c (S j) <= start_of 0 c k) by (apply start_of_le; lia).
      destruct (cube_visits c ti IX TX start (a_varr st1) rank filt iw Hs m p (tk_pos t) (marker j p (w_sigil w)) t Hm) as [[v V] _]; try exact M1; auto; try lia.
      apply (al_varr _ _ _ _ _ AL) in V. destruct V as [wp [u [A [B C]]]].
      destruct (Forall2_In_r _ _ _ _ (al_paths _ _ _ _ _ AL) A) as [iw' [A1 A2]].
      assert (Hu : In u (iw_toks iw')).
      { destruct A2 as [_ [path [_ A4]]]. rewrite A4 in B. destruct (steps_single _ _ _ _ B) as [u' [B1 B2]]. congruence. }
      apply In_nth_error in A1 as [k2 A1]. assert (L2 : k2 < k).
      { assert (k2 < length (firstn k (ti_wits ti))) by (apply nth_error_Some; congruence). rewrite firstn_length in H0. lia. }
      rewrite nth_error_firstn in A1. pose proof (proj2 (Nat.ltb_lt _ _) L2) as L3. rewrite L3 in A1. destruct (tok_range k2 iw' u A1 Hu) as [U1 U2].
      destruct (le_lt_dec k2 j) as [X|X].
      + pose proof (start_of_le (S k2) (S j)). lia.
      + pose proof (start_of_le (S j) k2). lia.
    - destruct (nth_error_lt_ex (ti_wits ti) j) as [iwj Hj]; [lia|].
      assert (SJ : iw_sigil iwj = w_sigil w).
      { pose proof (stamped_sigla c 0) as SS. rewrite <- (ix_wits _ _ IX) in SS. apply (f_equal (fun l => nth_error l j)) in SS.
        rewrite !nth_error_map, Hj, Hw in SS. injection SS. auto. }
      destruct (align_cubes st j iwj H Hj) as [st1 [W1 [rank [start [m [AL [Hs Hm]]]]]]]; [lia|].
      pose proof (start_pos c ti IX _ _ _ Hj Hs) as SP.
      assert (LE : start_of 0 c (S k) <= start_of 0 c j) by (apply start_of_le; lia).
      assert (LJ : start_of 0 c j < start_of 0 c (S j)) by (apply start_of_mono; lia).
      destruct (cube_visits c ti IX TX start (a_varr st1) rank filt iwj Hs m (tk_pos t) p t (marker j p (w_sigil w)) Hm) as [_ V]; try exact M1; auto; try lia; try congruence.
      destruct (V NF) as [d D]. apply (marker_data _ _ _ _ D).
  Qed.

  Hypothesis NM : forall k' iw' t j, nth_error (ti_wits ti) k' = Some iw' -> In t (iw_toks iw') -> S j < length (ti_wits ti) ->
    j < k' \/ (filt <> None /\ k' < j) -> tk_str t <> marker_str j.

  Lemma align_rest_total : forall rest done st W, ti_wits ti = done ++ rest -> W <> [] ->
    al_inv filt ti done st W -> exists st', foldM (next_step topo filt false ti) rest st = Ok st'.
  Proof.
    induction rest as [|iw rest IH]; intros done st W DW NE AL.
    - eexists. reflexivity.
    - cbn [foldM].
      destruct (next_step_inv done iw rest st W DW NE AL) as [rk [mm [l [start [RK [RO [Hs [HP N]]]]]]]].
      assert (Hk : nth_error (ti_wits ti) (length done) = Some iw).
      { rewrite DW, nth_error_app2, Nat.sub_diag by lia. reflexivity. }
      destruct (cube_total c ti IX TX start (a_varr st) (by_vertex (ranking_for rk mm l)) filt (length done) iw Hk Hs NM) as [m Hm].
      { intros iw' k' t H1 H2 H3. rewrite DW, nth_error_app1 in H1 by assumption.
        apply nth_error_In in H1. destruct (tok_at_vertex done W (al_paths _ _ _ _ _ AL) iw' t H1 H3) as [v Hv].
        exists v, (rk v). split; [apply (al_varr _ _ _ _ _ AL); assumption|].
        apply by_vertex_get with (a_graph st); auto. destruct Hv as [wp [t1 [A [B _]]]].
        apply (gi_on _ _ (al_graph _ _ _ _ _ AL) wp v [t1]); assumption. }
      destruct (N m Hm) as [al [_ [st2 [N1 N2]]]]. rewrite N1. cbn [bind].
      apply (IH (done ++ [iw]) st2 (W ++ [(iw_sigil iw, steps (iw_toks iw) (assign al (g_next (a_graph st)) (iw_toks iw)))])).
      + rewrite DW, <- app_assoc. reflexivity.
      + destruct W; discriminate.
      + assumption.
  Qed.

  Theorem align_all_total : ti_wits ti <> [] -> exists st, align_all topo filt false ti = Ok st.
  Proof.
    intros NE. assert (E : exists iw rest, ti_wits ti = iw :: rest).
    { clear - NE. destruct (ti_wits ti) as [|iw rest]; [congruence|eauto]. }
    destruct E as [iw [rest E]]. unfold align_all. rewrite E.
    destruct (first_step_inv iw rest E) as [st1 [path [F1 F2]]]. rewrite F1. cbn [bind].
    eapply (align_rest_total rest [iw]); eauto. discriminate.
  Qed.
End Step.
