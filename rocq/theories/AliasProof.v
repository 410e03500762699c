(** Token dictionaries as objects: without sharing nothing changes, with sharing there is no result. *)
From Verif Require Import Py Lib TokenModel SuffixModel IndexModel GraphModel AlignModel TableModel NearModel ExportModel
  CollateModel AliasModel AliasSpec GraphSpec CollateSpec SuffixSpec GraphProof MergeProof RankProof TopoProof AlignProof RadixProof DC3Proof
  BlockProof SuffixProof IndexProof BlockText InstProof CubeProof AlignerProof OutputProof HistoryProof DrawProof.
From Coq Require Import QArith.
Open Scope nat_scope.

Definition vtok (h : heap) (t : rtok) : tok0 := {| t0_str := rt_str t; t0_data := h (rt_ref t) |}.
Definition vwit (h : heap) (w : rwit) : witness := {| w_sigil := rw_sigil w; w_toks := map (vtok h) (rw_toks w) |}.
Definition refs (ws : list rwit) : list nat := flat_map (fun w => map rt_ref (rw_toks w)) ws.

(** ** The token array *)
Fixpoint rstamped (pos : nat) (c : list rwit) : list (str * list slot) :=
  match c with
  | [] => []
  | w :: c' => (rw_sigil w, slots pos (rw_toks w)) :: rstamped (pos + length (rw_toks w) + 1) c'
  end.
Fixpoint rlayout (idx pos : nat) (c : list rwit) : list slot :=
  match c with
  | [] => []
  | w :: c' => slots pos (rw_toks w) ++ [SMark (marker idx (pos + length (rw_toks w)) (rw_sigil w))]
               ++ rlayout (idx + 1) (pos + length (rw_toks w) + 1) c'
  end.
Fixpoint rheap (pos : nat) (c : list rwit) (h : heap) : heap :=
  match c with
  | [] => h
  | w :: c' => rheap (pos + length (rw_toks w) + 1) c' (rstamp (rw_sigil w) pos (rw_toks w) h)
  end.
Fixpoint rranges (pos : nat) (c : list rwit) : list (str * list nat) :=
  match c with
  | [] => []
  | w :: c' => (rw_sigil w, seq pos (length (rw_toks w))) :: rranges (pos + length (rw_toks w) + 1) c'
  end.

Lemma rprepare_loop_spec : forall c idx pos ranges arr out h,
  Forall (fun w => rw_toks w <> []) c -> NoDup (map fst ranges ++ map rw_sigil c) ->
  rprepare_loop c idx pos pos ranges arr out h =
  Ok (ranges ++ rranges pos c, arr ++ rlayout idx pos c, out ++ rstamped pos c, rheap pos c h).
Proof.
  induction c as [|w c IH]; intros idx pos ranges arr out h NE ND.
  - cbn [rprepare_loop rranges rlayout rstamped rheap]. rewrite !app_nil_r. reflexivity.
  - inversion NE; subst. cbn [rprepare_loop rstamped rlayout rheap rranges map].
    assert (L : 0 < length (rw_toks w)) by (destruct (rw_toks w); [congruence|simpl; lia]).
    unfold range_of. destruct (Nat.ltb_spec pos (pos + length (rw_toks w))); [|lia]. cbn [bind].
    replace (pos + length (rw_toks w) - pos) with (length (rw_toks w)) by lia.
    simpl in ND. rewrite (dset_new _ str_eqb_ok).
    2:{ apply NoDup_remove_2 in ND. rewrite in_app_iff in ND. tauto. }
    rewrite IH; auto.
    + rewrite <- !app_assoc. reflexivity.
    + rewrite map_app. cbn [map fst]. rewrite <- app_assoc. exact ND.
Qed.

Lemma rprepare_loop_empty : forall c idx pos tap ranges arr out h, Exists (fun w => rw_toks w = []) c ->
  rprepare_loop c idx pos tap ranges arr out h = Raise AssertionError.
Proof.
  induction c as [|w c IH]; intros idx pos tap ranges arr out h E; [inversion E|]. cbn [rprepare_loop].
  unfold range_of. destruct (Nat.ltb_spec pos (pos + length (rw_toks w))) as [L|L]; [|reflexivity]. cbn [bind].
  inversion E; subst.
  - rewrite H0 in L. simpl in L. lia.
  - apply IH. assumption.
Qed.
Lemma prepare_loop_empty : forall c idx pos tap ranges arr out, Exists (fun w => w_toks w = []) c ->
  prepare_loop c idx pos tap ranges arr out = Raise AssertionError.
Proof.
  induction c as [|w c IH]; intros idx pos tap ranges arr out E; [inversion E|]. cbn [prepare_loop].
  unfold range_of. destruct (Nat.ltb_spec pos (pos + length (w_toks w))) as [L|L]; [|reflexivity]. cbn [bind].
  inversion E; subst.
  - rewrite H0 in L. simpl in L. lia.
  - apply IH. assumption.
Qed.

Lemma empty_or_not : forall ws, Forall (fun w => rw_toks w <> []) ws \/ Exists (fun w => rw_toks w = []) ws.
Proof.
  induction ws as [|w ws IH]; [left; constructor|]. destruct (rw_toks w) as [|t ts] eqn:E.
  - right. apply Exists_cons_hd. assumption.
  - destruct IH as [IH|IH]; [left|right; apply Exists_cons_tl; assumption]. constructor; [congruence|assumption].
Qed.

(** ** What is written into the dictionaries *)
Lemma hset_same : forall h r d, hset h r d r = d.
Proof. intros. unfold hset. rewrite Nat.eqb_refl. reflexivity. Qed.
Lemma hset_other : forall h r d x, x <> r -> hset h r d x = h x.
Proof. intros. unfold hset. apply Nat.eqb_neq in H. rewrite H. reflexivity. Qed.

Lemma rstamp_other : forall sg ts pos h r, ~ In r (map rt_ref ts) -> rstamp sg pos ts h r = h r.
Proof.
  induction ts as [|t ts IH]; intros pos h r N; [reflexivity|]. cbn [rstamp]. cbn [map In] in N.
  rewrite IH by tauto. apply hset_other. intros E. apply N. left. congruence.
Qed.
Lemma rheap_other : forall c pos h r, ~ In r (refs c) -> rheap pos c h r = h r.
Proof.
  induction c as [|w c IH]; intros pos h r N; [reflexivity|]. cbn [rheap]. cbn [refs flat_map] in N. rewrite in_app_iff in N.
  rewrite IH by tauto. apply rstamp_other. tauto.
Qed.

Lemma rstamp_own : forall sg ts pos h h', NoDup (map rt_ref ts) ->
  (forall r, In r (map rt_ref ts) -> h' r = rstamp sg pos ts h r) ->
  map (deref h') (slots pos ts) = stamp sg pos (map (vtok h) ts).
Proof.
  induction ts as [|t ts IH]; intros pos h h' N H; [reflexivity|]. cbn [slots map stamp deref vtok t0_str t0_data].
  cbn [map] in N. inversion N as [|x l N1 N2]; subst. f_equal.
  - f_equal. rewrite H by (left; reflexivity). cbn [rstamp]. rewrite rstamp_other by assumption. apply hset_same.
  - rewrite IH with (h := hset h (rt_ref t) (dset str_eqb k_pos (JNum (Z.of_nat pos)) (dset str_eqb k_sigil (JStr sg) (h (rt_ref t))))); auto.
    + f_equal. apply map_ext_in. intros u Hu. unfold vtok. f_equal. apply hset_other. intros E. apply N1. rewrite <- E. apply in_map. assumption.
    + intros r Hr. rewrite H by (right; assumption). reflexivity.
Qed.

Lemma rheap_layout : forall c idx pos h h0, NoDup (refs c) -> (forall r, In r (refs c) -> h r = h0 r) ->
  forall h', (forall r, In r (refs c) -> h' r = rheap pos c h r) ->
  map (deref h') (rlayout idx pos c) = layout idx pos (map (vwit h0) c) /\
  map (fun '(sg, ts) => {| iw_sigil := sg; iw_toks := map (deref h') ts |}) (rstamped pos c) = stamped pos (map (vwit h0) c).
Proof.
  induction c as [|w c IH]; intros idx pos h h0 N Hh h' H'; [split; reflexivity|].
  cbn [refs flat_map] in N. apply NoDup_app_iff in N as [N1 [N2 N3]]. fold (refs c) in N2, N3.
  cbn [rlayout rstamped map layout stamped]. cbn [vwit w_sigil w_toks]. rewrite !map_length.
  assert (E : map (deref h') (slots pos (rw_toks w)) = stamp (rw_sigil w) pos (map (vtok h0) (rw_toks w))).
  { rewrite (rstamp_own (rw_sigil w) (rw_toks w) pos h h' N1).
    - f_equal. apply map_ext_in. intros t Ht. unfold vtok. f_equal. apply Hh. cbn [refs flat_map]. apply in_or_app. left. apply in_map. assumption.
    - intros r Hr. rewrite H'. 2:{ cbn [refs flat_map]. apply in_or_app. auto. } cbn [rheap]. apply rheap_other. apply N3. assumption. }
  destruct (IH (idx + 1) (pos + length (rw_toks w) + 1) (rstamp (rw_sigil w) pos (rw_toks w) h) h0 N2) with (h' := h') as [A B].
  { intros r Hr. rewrite rstamp_other by (intros C; apply (N3 r C); assumption). apply Hh. cbn [refs flat_map]. apply in_or_app. auto. }
  { intros r Hr. rewrite H'. 2:{ cbn [refs flat_map]. apply in_or_app. auto. } reflexivity. }
  split.
  - rewrite !map_app, A. cbn [map deref]. rewrite E. reflexivity.
  - rewrite B, E. reflexivity.
Qed.

Lemma rranges_stamped : forall c pos h, rranges pos c = map range_entry (stamped pos (map (vwit h) c)).
Proof.
  induction c as [|w c IH]; intros pos h; [reflexivity|]. cbn [rranges map stamped]. cbn [vwit w_sigil w_toks]. unfold range_entry at 1.
  cbn [iw_sigil iw_toks]. rewrite stamp_pos, !map_length. f_equal. apply IH.
Qed.

Lemma map_removelast : forall {A B} (f : A -> B) l, map f (removelast l) = removelast (map f l).
Proof. induction l as [|x [|y l] IH]; auto. cbn [removelast map] in *. f_equal. exact IH. Qed.

Lemma vwit_sigla : forall h ws, map w_sigil (map (vwit h) ws) = map rw_sigil ws.
Proof. intros. rewrite map_map. reflexivity. Qed.

Theorem rprepare_unshared : forall ws h, NoDup (map rw_sigil ws) -> NoDup (refs ws) ->
  rprepare ws h = (ti <- prepare (map (vwit h) ws) ;; Ok (ti, rheap 0 ws h)).
Proof.
  intros ws h NS NR. unfold rprepare, prepare, prepare_array. destruct (empty_or_not ws) as [NE|EX].
  - rewrite rprepare_loop_spec by assumption. rewrite prepare_loop_spec; [|
      rewrite Forall_forall in *; intros w Hw; apply in_map_iff in Hw as [v [<- Hv]]; cbn [vwit w_toks]; intros C; apply map_eq_nil in C; apply (NE v Hv C)|
      rewrite vwit_sigla; assumption].
    cbn [bind app]. destruct (rheap_layout ws 0 0 h h NR (fun r _ => eq_refl) (rheap 0 ws h) (fun r _ => eq_refl)) as [A B].
    rewrite <- A, <- B. rewrite (rranges_stamped ws 0 h), <- B.
    destruct (rlayout 0 0 ws) as [|s l] eqn:E; [reflexivity|]. cbn [pop_last map]. cbn [bind].
    change (deref (rheap 0 ws h) s :: map (deref (rheap 0 ws h)) l) with (map (deref (rheap 0 ws h)) (s :: l)).
    rewrite <- map_removelast.
    destruct (suffix_array _) as [sa|e]; cbn [bind]; [|reflexivity].
    destruct (split_lcp _) as [bs|e]; cbn [bind]; [|reflexivity].
    destruct (construct_instances _ _ _) as [inst|e]; cbn [bind]; reflexivity.
  - rewrite rprepare_loop_empty by assumption. rewrite prepare_loop_empty; [reflexivity|].
    apply Exists_exists in EX as [w [Hw E]]. apply Exists_exists. exists (vwit h w). split; [apply in_map; assumption|].
    cbn [vwit w_toks]. rewrite E. reflexivity.
Qed.

(** ** Without sharing the aligner sees the positions it wrote *)
Lemma stamp_entry : forall sg ts pos t, In t (stamp sg pos ts) -> dget str_eqb k_pos (tk_data t) = Some (JNum (Z.of_nat (tk_pos t))).
Proof.
  induction ts as [|a ts IH]; intros pos t H; [contradiction|]. cbn [stamp In] in H. destruct H as [<-|H]; [|eauto].
  cbn [tk_data tk_pos]. apply (dget_set_same _ str_eqb_ok).
Qed.

Lemma rput_all : forall ti l d, (forall p v, In (p, v) l -> entry_pos ti p = Ok p) ->
  foldM (rput ti) l d = Ok (fold_left (fun d '(p, v) => dset Nat.eqb p v d) l d).
Proof.
  induction l as [|[p v] l IH]; intros d H; [reflexivity|]. cbn [foldM fold_left]. unfold rput at 1. cbn [fst snd].
  rewrite (H p v (or_introl eq_refl)). cbn [bind]. apply IH. intros q w Hq. apply (H q w). right. assumption.
Qed.

Lemma rupdate_same : forall ti p2v t2v aligned, (forall p v, In (p, v) t2v \/ In (p, v) aligned -> entry_pos ti p = Ok p) ->
  rupdate_p2v ti p2v t2v aligned = Ok (update_p2v p2v t2v aligned).
Proof.
  intros ti p2v t2v aligned H. unfold rupdate_p2v, update_p2v. rewrite rput_all by eauto. cbn [bind]. apply rput_all. eauto.
Qed.

Lemma merge_tokens_keys : forall ts g sg al last t2v r, merge_tokens g sg ts al last t2v = Ok r ->
  forall p v, In (p, v) (snd r) -> In (p, v) t2v \/ In p (map tk_pos ts).
Proof.
  induction ts as [|t ts IH]; intros g sg al last t2v r H p v Hp; cbn [merge_tokens] in H.
  - injection H as <-. auto.
  - cbn [map In]. destruct (dget Nat.eqb (tk_pos t) al) as [w|].
    + apply bind_ok in H as [g1 [_ H]]. destruct (IH _ _ _ _ _ _ H p v Hp); auto.
    + destruct (add_vertex g t sg) as [g1 w]. destruct (IH _ _ _ _ _ _ H p v Hp) as [Q|Q]; auto.
      apply dset_In in Q as [[-> _]|Q]; auto.
Qed.
Lemma merge_keys : forall g sg ts al g' new, merge g sg ts al = Ok (g', new) -> forall p v, In (p, v) new -> In p (map tk_pos ts).
Proof.
  intros g sg ts al g' new H p v Hp. unfold merge in H. apply bind_ok in H as [[[g1 last] t2v] [H E]]. injection E as <- <-.
  destruct (merge_tokens_keys _ _ _ _ _ _ _ H p v Hp) as [[]|Q]. assumption.
Qed.

Section Same.
  Variables (c : collation) (ti : tindex) (filt : option props_filter) (topo : graph -> res (list vid)).
  Hypothesis IX : index_ok c ti.
  Hypothesis TX : index_text_ok ti.
  Hypothesis SG : ~ In [] (map w_sigil c).
  Hypothesis TO : topo_ok topo.

  Lemma entry_ok' : forall iw t, In iw (ti_wits ti) -> In t (iw_toks iw) -> entry_pos ti (tk_pos t) = Ok (tk_pos t).
  Proof.
    intros iw t Hw Ht. unfold entry_pos, aget. rewrite (ix_nth c ti IX iw t Hw Ht). cbn [bind].
    rewrite (ix_wits _ _ IX) in Hw. destruct (stamped_toks _ _ _ Hw) as [p [w [_ [_ E]]]]. rewrite E in Ht.
    unfold dgetE. rewrite (stamp_entry _ _ _ _ Ht). cbn [bind]. rewrite Nat2Z.id. reflexivity.
  Qed.
  Lemma entry_in : forall iw p, In iw (ti_wits ti) -> In p (map tk_pos (iw_toks iw)) -> entry_pos ti p = Ok p.
  Proof. intros iw p Hw Hp. apply in_map_iff in Hp as [t [<- Ht]]. eauto using entry_ok'. Qed.

  Lemma rfirst_same : forall iw, In iw (ti_wits ti) -> rfirst_step ti iw = first_step ti iw.
  Proof.
    intros iw Hw. unfold rfirst_step, first_step. destruct (merge _ _ _ _) as [[g t2v]|e] eqn:E; cbn [bind]; [|reflexivity].
    rewrite rupdate_same; [reflexivity|]. intros p v [H|[]]. apply (entry_in iw p Hw). apply (merge_keys _ _ _ _ _ _ E p v H).
  Qed.

  Lemma at_vertex_entry : forall done rest W p v, ti_wits ti = done ++ rest -> Forall2 path_for done W -> at_vertex W p v -> entry_pos ti p = Ok p.
  Proof.
    intros done rest W p v DW F [wp [t [A [B C]]]]. destruct (AlignerProof.Forall2_In_r _ _ _ _ F A) as [iw [D [E [path [_ G]]]]].
    rewrite G in B. apply steps_single in B as [t' [Q I]]. injection Q as <-. rewrite <- C.
    apply (entry_ok' iw t); auto. rewrite DW. apply in_or_app. auto.
  Qed.

  Lemma rnext_same : forall detect done iw rest st W, ti_wits ti = done ++ iw :: rest -> W <> [] -> al_inv filt ti done st W ->
    rnext_step topo filt detect ti st iw = next_step topo filt detect ti st iw.
  Proof.
    intros detect done iw rest st W DW NE AL. unfold rnext_step, next_step. pose proof (al_graph _ _ _ _ _ AL) as GI.
    assert (Hiw : In iw (ti_wits ti)) by (rewrite DW; apply in_or_app; right; left; reflexivity).
    destruct (ranking_spec topo _ W TO GI) as [rk [mm [l [T [RK RO]]]]]. rewrite RK. cbn [bind].
    rewrite (ranks_ok _ rk mm l RO). cbn [bind]. rewrite (rank_count _ rk mm l RO).
    destruct (match_cube _ _ _ _ _) as [m|e] eqn:Hm; cbn [bind]; [|reflexivity].
    destruct (ix_start c ti IX iw Hiw) as [start [Hs [HP NEt]]].
    pose proof (cube_facts c ti filt IX TX done iw rest st W rk mm l start m DW AL RO Hs HP Hm) as CF.
    destruct (align_result _ W rk mm l (iw_toks iw) start m GI RO NE HP) as [aligned [A1 [_ [_ A4]]]].
    { intros y x v t D L. destruct (CF y x v t D L) as [F1 [F2 [F3 [F4 [F5 _]]]]]. auto. }
    rewrite A1. cbn [bind]. destruct (merge _ _ _ _) as [[g' new]|e] eqn:Em; cbn [bind]; [|reflexivity].
    rewrite rupdate_same; [reflexivity|]. intros p v [H|H].
    - fold (fill new (a_t2v st)) in H. apply fill_In in H as [H|H].
      + apply (entry_in iw p Hiw). apply (merge_keys _ _ _ _ _ _ Em p v H).
      + apply (at_vertex_entry done (iw :: rest) W p v DW (al_paths _ _ _ _ _ AL)). apply (al_t2v _ _ _ _ _ AL). assumption.
    - destruct (A4 p v H) as [y [t [Y1 [Y2 _]]]]. rewrite <- Y2. apply (entry_ok' iw t Hiw). apply nth_error_In with y. assumption.
  Qed.

  Lemma next_detect : forall st iw, next_step topo filt true ti st iw = (_ <- next_step topo filt false ti st iw ;; Raise AttributeError).
  Proof.
    intros st iw. unfold next_step.
    destruct (ranking_of _ _); cbn [bind]; [|reflexivity]. destruct (mapM _ _); cbn [bind]; [|reflexivity].
    destruct (match_cube _ _ _ _ _); cbn [bind]; [|reflexivity]. destruct (align_matching_tokens _ _); cbn [bind]; [|reflexivity].
    destruct (merge _ _ _ _) as [[g' new]|]; cbn [bind]; [|reflexivity]. destruct (get_range_for_witness _ _); cbn [bind]; [|reflexivity].
    destruct (foldM _ _ _); cbn [bind]; [|reflexivity]. destruct (update_varr _ _ _); cbn [bind]; reflexivity.
  Qed.

  Lemma rrest_same : forall detect rest done st W, ti_wits ti = done ++ rest -> W <> [] -> al_inv filt ti done st W ->
    foldM (rnext_step topo filt detect ti) rest st = foldM (next_step topo filt detect ti) rest st.
  Proof.
    intros detect. induction rest as [|iw rest IH]; intros done st W DW NE AL; [reflexivity|]. cbn [foldM].
    rewrite (rnext_same detect done iw rest st W DW NE AL). destruct detect.
    - rewrite next_detect. destruct (next_step _ _ _ _ _ _); reflexivity.
    - destruct (next_step topo filt false ti st iw) as [st1|e] eqn:E; cbn [bind]; [|reflexivity].
      destruct (next_step_inv c ti filt IX TX SG topo TO done iw rest st W DW NE AL) as [rk [mm [l [start [RK [RO [Hs [HP N]]]]]]]].
      destruct (next_step_cube ti filt topo st iw st1 _ RK E) as [m Hm]. destruct (N m Hm) as [al [_ [st2 [N1 N2]]]].
      rewrite E in N1. injection N1 as <-.
      apply IH with (done := done ++ [iw]) (W := W ++ [(iw_sigil iw, steps (iw_toks iw) (assign al (g_next (a_graph st)) (iw_toks iw)))]).
      + rewrite <- app_assoc. exact DW.
      + destruct W; discriminate.
      + assumption.
  Qed.

  Theorem ralign_same : forall detect, ralign_all topo filt detect ti = align_all topo filt detect ti.
  Proof.
    intros detect. unfold ralign_all, align_all. destruct (ti_wits ti) as [|iw rest] eqn:E; [reflexivity|].
    rewrite rfirst_same by (rewrite E; left; reflexivity).
    destruct (first_step_inv c ti filt IX SG iw rest E) as [st1 [path [F1 F2]]]. rewrite F1. cbn [bind].
    apply rrest_same with (done := [iw]) (W := [(iw_sigil iw, steps (iw_toks iw) path)]); auto. discriminate.
  Qed.
End Same.

(** ** From the caller's data *)
Lemma rtokens_ref : forall h rs r, mapM (rtoken_init h) rs = Ok r -> map snd r = rs.
Proof.
  induction rs as [|x rs IH]; intros r H; cbn [mapM] in H.
  - apply ok_inj in H. subst r. reflexivity.
  - apply bind_ok in H as [y [H1 H]]. apply bind_ok in H as [ys [H2 H]]. apply ok_inj in H. subst r. cbn [map]. f_equal; [|eauto].
    unfold rtoken_init in H1. apply bind_ok in H1 as [[v d] [_ H1]]. injection H1 as <-. reflexivity.
Qed.
Lemma rstr_ref : forall l r, mapM rtoken_str l = Ok r -> map rt_ref r = map snd l.
Proof.
  induction l as [|x l IH]; intros r H; cbn [mapM] in H.
  - apply ok_inj in H. subst r. reflexivity.
  - apply bind_ok in H as [y [H1 H]]. apply bind_ok in H as [ys [H2 H]]. apply ok_inj in H. subst r. cbn [map]. f_equal; [|eauto].
    unfold rtoken_str in H1. destruct (fst x); try discriminate. injection H1 as <-. reflexivity.
Qed.
Lemma rwitness_shape : forall h d w, rwitness_init h d = Ok w -> rw_sigil w = fst d /\ map rt_ref (rw_toks w) = snd d.
Proof.
  intros h d w H. unfold rwitness_init in H. apply bind_ok in H as [ts [H1 H]]. apply bind_ok in H as [ts' [H2 H]]. apply ok_inj in H. subst w.
  cbn [rw_sigil rw_toks]. split; [reflexivity|]. rewrite (rstr_ref _ _ H2). apply (rtokens_ref _ _ _ H1).
Qed.
Lemma rwitnesses_shape : forall h data ws, mapM (rwitness_init h) data = Ok ws -> map rw_sigil ws = map fst data /\ refs ws = flat_map snd data.
Proof.
  intros h. induction data as [|d data IH]; intros ws H; cbn [mapM] in H.
  - apply ok_inj in H. subst ws. split; reflexivity.
  - apply bind_ok in H as [w [H1 H]]. apply bind_ok in H as [ws' [H2 H]]. apply ok_inj in H. subst ws.
    destruct (IH _ H2) as [A B]. destruct (rwitness_shape _ _ _ H1) as [C D]. cbn [map refs flat_map]. fold (refs ws'). split; congruence.
Qed.

Lemma as_dict_all : forall h (rs : list nat), mapM as_dict (map (fun r => JObj (h r)) rs) = Ok (map h rs).
Proof. induction rs as [|r rs IH]; [reflexivity|]. cbn [map mapM as_dict bind]. rewrite IH. reflexivity. Qed.
Lemma token_init_data : forall d v d', token_init d = Ok (v, d') -> d' = d.
Proof. intros d v d' H. unfold token_init in H. destruct (dget _ _ d); [injection H as _ H; auto|]. destruct (dget _ _ d); [injection H as _ H; auto|discriminate]. Qed.
Lemma rtokens_values : forall h rs, mapM token_init (map h rs) = (l <- mapM (rtoken_init h) rs ;; Ok (map (fun e => (fst e, h (snd e))) l)).
Proof.
  intros h. induction rs as [|r rs IH]; [reflexivity|]. cbn [map mapM]. rewrite IH. unfold rtoken_init at 2.
  destruct (token_init (h r)) as [[v d]|e] eqn:E; cbn [bind]; [|reflexivity]. apply token_init_data in E. subst d.
  destruct (mapM (rtoken_init h) rs); reflexivity.
Qed.
Lemma rstr_values : forall h l, mapM tok_str_of (map (fun e => (fst e, h (snd e))) l) = (ts <- mapM rtoken_str l ;; Ok (map (vtok h) ts)).
Proof.
  intros h. induction l as [|[v r] l IH]; [reflexivity|]. cbn [map mapM]. rewrite IH. unfold tok_str_of at 1, rtoken_str at 2. cbn [fst snd].
  destruct v; cbn [bind]; try reflexivity. destruct (mapM rtoken_str l); reflexivity.
Qed.

Definition given (h : heap) (w : str * list nat) : jdict :=
  [(lit "id", JStr (fst w)); (lit "tokens", JArr (map (fun r => JObj (h r)) (snd w)))].
Lemma witness_value : forall cc h d, witness_init cc (given h d) = (w <- rwitness_init h d ;; Ok (vwit h w)).
Proof.
  intros cc h [sg rs]. unfold witness_init, rwitness_init, given.
  change (dget str_eqb (lit "id") [(lit "id", JStr (fst (sg, rs))); (lit "tokens", JArr (map (fun r : nat => JObj (h r)) (snd (sg, rs))))]) with (Some (JStr sg)).
  change (dget str_eqb (lit "content") [(lit "id", JStr (fst (sg, rs))); (lit "tokens", JArr (map (fun r : nat => JObj (h r)) (snd (sg, rs))))]) with (@None jval).
  change (dget str_eqb (lit "tokens") [(lit "id", JStr (fst (sg, rs))); (lit "tokens", JArr (map (fun r : nat => JObj (h r)) (snd (sg, rs))))])
    with (Some (JArr (map (fun r : nat => JObj (h r)) rs))).
  cbn [snd fst]. rewrite as_dict_all. cbn [bind]. rewrite rtokens_values.
  destruct (mapM (rtoken_init h) rs) as [l|e]; cbn [bind]; [|reflexivity]. rewrite rstr_values.
  destruct (mapM rtoken_str l); reflexivity.
Qed.
Lemma create_fold : forall cc h data c0,
  foldM (fun c v => d <- as_dict v ;; add_witness cc c d) (map (fun w => JObj (given h w)) data) c0 =
  (ws <- mapM (rwitness_init h) data ;; Ok (c0 ++ map (vwit h) ws)).
Proof.
  intros cc h. induction data as [|d data IH]; intros c0; cbn [map foldM mapM].
  - cbn [bind]. rewrite app_nil_r. reflexivity.
  - cbn [as_dict bind]. unfold add_witness at 1. rewrite witness_value. destruct (rwitness_init h d) as [w|e]; cbn [bind]; [|reflexivity].
    rewrite IH. destruct (mapM (rwitness_init h) data) as [ws|e]; cbn [bind]; [|reflexivity]. cbn [map]. rewrite <- app_assoc. reflexivity.
Qed.
Lemma create_value : forall cc h data, create_from_dict cc (copied h data) None = (ws <- mapM (rwitness_init h) data ;; Ok (map (vwit h) ws)).
Proof.
  intros. unfold create_from_dict, copied.
  change (dget str_eqb (lit "witnesses") [(lit "witnesses", JArr (map (fun w => JObj (given h w)) data))]) with (Some (JArr (map (fun w => JObj (given h w)) data))).
  cbn [py_prefix]. apply (create_fold cc h data []).
Qed.

Section Collate.
  Variables (cc : cclass) (topo : graph -> res (list vid)) (ratio : str -> str -> Q).
  Hypothesis TO : topo_ok topo.

  Lemma rgraph_unshared : forall ws h o, NoDup (map rw_sigil ws) -> ~ In [] (map rw_sigil ws) -> NoDup (refs ws) ->
    rcollate_graph cc topo ratio ws h o = collate_graph cc topo ratio (map (vwit h) ws) o.
  Proof.
    intros ws h o NS NE NR. unfold rcollate_graph, collate_graph, aligner_collate. destruct (o_astar o); [reflexivity|].
    rewrite rprepare_unshared by assumption. destruct (prepare (map (vwit h) ws)) as [ti|e] eqn:P; cbn [bind]; [|reflexivity].
    assert (NS' : NoDup (map w_sigil (map (vwit h) ws))) by (rewrite vwit_sigla; assumption).
    assert (NE' : ~ In [] (map w_sigil (map (vwit h) ws))) by (rewrite vwit_sigla; assumption).
    rewrite (ralign_same _ ti (o_filter o) topo (prepare_index_ok _ ti NS' P) (prepare_text_ok _ ti P) NE' TO (o_transp o)).
    destruct (align_all topo (o_filter o) (o_transp o) ti) as [st|e]; cbn [bind]; reflexivity.
  Qed.

  Lemma render_sigla : forall c1 c2 o g rk, map w_sigil c1 = map w_sigil c2 -> render cc c1 o g rk = render cc c2 o g rk.
  Proof. intros c1 c2 o g rk H. unfold render. rewrite H. reflexivity. Qed.

  Theorem rcollate_unshared : forall h (data : list (str * list nat)) o, NoDup (map fst data) -> ~ In ([] : str) (map fst data) -> no_sharing data ->
    rcollate cc topo ratio h data o = collate_dict cc topo ratio (copied h data) o.
  Proof.
    intros h data o NS NE NR. unfold rcollate, collate_dict. rewrite create_value.
    destruct (mapM (rwitness_init h) data) as [ws|e] eqn:E; cbn [bind]; [|reflexivity].
    destruct (rwitnesses_shape _ _ _ E) as [A B]. unfold collate. rewrite <- A in NS, NE. unfold no_sharing in NR. rewrite <- B in NR.
    rewrite rgraph_unshared by assumption. destruct (collate_graph cc topo ratio (map (vwit h) ws) o) as [[g rk]|e]; cbn [bind]; [|reflexivity].
    apply render_sigla. rewrite !map_map. reflexivity.
  Qed.
End Collate.

(** ** Sharing *)
Definition spos (s : slot) : nat := match s with STok p _ => p | SMark m => tk_pos m end.
Definition all_slots (pos : nat) (c : list rwit) : list slot := flat_map snd (rstamped pos c).

Lemma slots_pos : forall ts pos, map spos (slots pos ts) = seq pos (length ts).
Proof. induction ts as [|t ts IH]; intros pos; [reflexivity|]. cbn [slots map spos length seq]. rewrite IH, Nat.add_1_r. reflexivity. Qed.
Lemma slots_tok : forall ts pos s, In s (slots pos ts) -> exists t, s = STok (spos s) t /\ In t ts /\ pos <= spos s < pos + length ts.
Proof.
  induction ts as [|t ts IH]; intros pos s H; [contradiction|]. destruct H as [<-|H].
  - exists t. cbn [spos length]. split; [reflexivity|]. split; [left; reflexivity|lia].
  - destruct (IH _ _ H) as [u [A [B C]]]. exists u. cbn [length]. split; [assumption|]. split; [right; assumption|lia].
Qed.
Lemma slots_refs : forall ts pos, map (fun s => match s with STok _ t => rt_ref t | SMark _ => 0 end) (slots pos ts) = map rt_ref ts.
Proof. induction ts as [|t ts IH]; intros pos; [reflexivity|]. cbn [slots map]. rewrite IH. reflexivity. Qed.
Definition sref (s : slot) : nat := match s with STok _ t => rt_ref t | SMark _ => 0 end.
Lemma all_refs : forall c pos, map sref (all_slots pos c) = refs c.
Proof.
  induction c as [|w c IH]; intros pos; [reflexivity|]. unfold all_slots. cbn [rstamped flat_map snd refs]. rewrite map_app.
  fold (all_slots (pos + length (rw_toks w) + 1) c). rewrite IH. f_equal. apply slots_refs.
Qed.
Lemma all_ge : forall c pos s, In s (all_slots pos c) -> pos <= spos s.
Proof.
  induction c as [|w c IH]; intros pos s H; [contradiction|]. unfold all_slots in H. cbn [rstamped flat_map snd] in H. apply in_app_or in H as [H|H].
  - apply slots_tok in H as [t [_ [_ H]]]. lia.
  - apply (IH (pos + length (rw_toks w) + 1)) in H. lia.
Qed.
Lemma all_nodup : forall c pos, NoDup (map spos (all_slots pos c)).
Proof.
  induction c as [|w c IH]; intros pos; [constructor|]. unfold all_slots. cbn [rstamped flat_map snd]. rewrite map_app, slots_pos.
  apply NoDup_app_iff. split; [apply seq_NoDup|]. split; [apply IH|]. intros p H1 H2. apply in_seq in H1.
  apply in_map_iff in H2 as [s [<- Hs]]. apply (all_ge c (pos + length (rw_toks w) + 1)) in Hs. lia.
Qed.
Lemma all_unique : forall c pos s s', In s (all_slots pos c) -> In s' (all_slots pos c) -> spos s = spos s' -> s = s'.
Proof.
  intros c pos s s' H H' E. pose proof (all_nodup c pos) as N. apply In_nth_error in H as [i Hi]. apply In_nth_error in H' as [j Hj].
  rewrite NoDup_nth_error in N. assert (i = j); [|congruence]. apply N.
  - rewrite map_length. apply nth_error_Some. congruence.
  - rewrite !nth_error_map, Hi, Hj. cbn. congruence.
Qed.

(** The position written last. *)
Definition last_entry (l : list slot) (r : nat) (d : jdict) : Prop :=
  exists s, In s l /\ sref s = r /\ (forall s', In s' l -> sref s' = r -> spos s' <= spos s) /\
    dget str_eqb k_pos d = Some (JNum (Z.of_nat (spos s))).

Lemma rstamp_last : forall sg ts pos h r, In r (map rt_ref ts) -> last_entry (slots pos ts) r (rstamp sg pos ts h r).
Proof.
  intros sg. induction ts as [|t ts IH]; intros pos h r H; [contradiction|]. cbn [rstamp slots].
  destruct (in_dec Nat.eq_dec r (map rt_ref ts)) as [I|N].
  - destruct (IH (pos + 1) (hset h (rt_ref t) (dset str_eqb k_pos (JNum (Z.of_nat pos)) (dset str_eqb k_sigil (JStr sg) (h (rt_ref t))))) r I)
      as [s [A [B [C D]]]]. exists s. split; [right; assumption|]. split; [assumption|]. split; [|assumption].
    intros s' [<-|H'] E; [|auto]. apply slots_tok in A as [u [_ [_ A]]]. cbn [spos]. lia.
  - destruct H as [<-|H]; [|contradiction]. exists (STok pos t). split; [left; reflexivity|]. split; [reflexivity|]. split.
    + intros s' [<-|H'] E; [lia|]. exfalso. apply N. apply slots_tok in H' as [u [A [B _]]]. rewrite <- E, A. cbn [sref]. apply in_map. assumption.
    + rewrite rstamp_other by assumption. rewrite hset_same. cbn [spos]. apply (dget_set_same _ str_eqb_ok).
Qed.
Lemma rheap_last : forall c pos h r, In r (refs c) -> last_entry (all_slots pos c) r (rheap pos c h r).
Proof.
  induction c as [|w c IH]; intros pos h r H; [contradiction|]. cbn [rheap]. unfold all_slots. cbn [rstamped flat_map snd].
  fold (all_slots (pos + length (rw_toks w) + 1) c).
  destruct (in_dec Nat.eq_dec r (refs c)) as [I|N].
  - destruct (IH (pos + length (rw_toks w) + 1) (rstamp (rw_sigil w) pos (rw_toks w) h) r I) as [s [A [B [C D]]]].
    exists s. split; [apply in_or_app; auto|]. split; [assumption|]. split; [|assumption].
    intros s' H' E. apply in_app_or in H' as [H'|H']; [|auto]. apply slots_tok in H' as [u [_ [_ H']]]. apply all_ge in A. lia.
  - cbn [refs flat_map] in H. apply in_app_or in H as [H|H]; [|contradiction].
    destruct (rstamp_last (rw_sigil w) (rw_toks w) pos h r H) as [s [A [B [C D]]]]. exists s.
    split; [apply in_or_app; auto|]. split; [assumption|]. split.
    + intros s' H' E. apply in_app_or in H' as [H'|H']; [auto|]. exfalso. apply N. rewrite <- (all_refs c (pos + length (rw_toks w) + 1)), <- E.
      apply in_map. assumption.
    + rewrite rheap_other by assumption. assumption.
Qed.

Lemma rlayout_In : forall c idx pos s, In s (rlayout idx pos c) -> In s (all_slots pos c) \/ exists i p sg, s = SMark (marker i p sg).
Proof.
  induction c as [|w c IH]; intros idx pos s H; [contradiction|]. cbn [rlayout] in H. unfold all_slots. cbn [rstamped flat_map snd].
  fold (all_slots (pos + length (rw_toks w) + 1) c). apply in_app_or in H as [H|H]; [left; apply in_or_app; auto|].
  destruct H as [<-|H]; [right; eauto|]. destruct (IH _ _ _ H) as [Q|Q]; [left; apply in_or_app; auto|right; assumption].
Qed.

Lemma rranges_eq : forall c pos, rranges pos c = map (fun e => (fst e, map spos (snd e))) (rstamped pos c).
Proof. induction c as [|w c IH]; intros pos; [reflexivity|]. cbn [rranges rstamped map fst snd]. rewrite slots_pos, IH. reflexivity. Qed.
Lemma rstamped_sigla : forall c pos, map fst (rstamped pos c) = map rw_sigil c.
Proof. induction c as [|w c IH]; intros pos; [reflexivity|]. cbn [rstamped map fst]. rewrite IH. reflexivity. Qed.

Section NoResult.
  Variables (topo : graph -> res (list vid)) (filt : option props_filter) (detect : bool) (ti : tindex).
  (** Every key of the dictionary is the position entry of some token. *)
  Definition keys_seen (d : list (nat * vid)) : Prop := forall p v, In (p, v) d -> exists p', entry_pos ti p' = Ok p.

  Lemma rput_seen : forall l d d', keys_seen d -> foldM (rput ti) l d = Ok d' -> keys_seen d'.
  Proof.
    induction l as [|[q w] l IH]; intros d d' K H; cbn [foldM] in H; [injection H as <-; assumption|].
    apply bind_ok in H as [d1 [H1 H]]. apply (IH d1 d'); [|assumption]. unfold rput in H1. apply bind_ok in H1 as [x [E H1]]. injection H1 as <-.
    cbn [fst snd] in *. intros p v Hp. apply dset_In in Hp as [[-> _]|Hp]; eauto.
  Qed.
  Lemma rupdate_seen : forall d t a d', keys_seen d -> rupdate_p2v ti d t a = Ok d' -> keys_seen d'.
  Proof. intros d t a d' K H. unfold rupdate_p2v in H. apply bind_ok in H as [d1 [H1 H]]. eauto using rput_seen. Qed.

  Lemma varr_keys : forall r d a a', update_varr r d a = Ok a' -> forall p, In p r -> exists v, In (p, v) d.
  Proof.
    unfold update_varr. induction r as [|q r IH]; intros d a a' H p Hp; [contradiction|]. cbn [foldM] in H.
    apply bind_ok in H as [a1 [H1 H]]. destruct Hp as [->|Hp]; [|eauto]. apply bind_ok in H1 as [v [E _]]. apply (dgetE_ok _) in E.
    exists v. apply (dget_In _ nat_eqb_ok). assumption.
  Qed.
  Lemma wfold_keys : forall (d : list (nat * vid)) r acc w, foldM (fun d0 p => v <- dgetE Nat.eqb p d ;; Ok (dset Nat.eqb p v d0)) r acc = Ok w ->
    forall p, In p r -> exists v, In (p, v) d.
  Proof.
    intros d. induction r as [|q r IH]; intros acc w H p Hp; [contradiction|]. cbn [foldM] in H.
    apply bind_ok in H as [a1 [H1 H]]. destruct Hp as [->|Hp]; [|eauto]. apply bind_ok in H1 as [v [E _]]. apply (dgetE_ok _) in E.
    exists v. apply (dget_In _ nat_eqb_ok). assumption.
  Qed.

  Definition range_seen (iw : iwitness) : Prop := forall r p, get_range_for_witness ti (iw_sigil iw) = Ok r -> In p r -> exists p', entry_pos ti p' = Ok p.

  Lemma rfirst_seen : forall iw st, rfirst_step ti iw = Ok st -> keys_seen (a_p2v st) /\ range_seen iw.
  Proof.
    intros iw st H. unfold rfirst_step in H. apply bind_ok in H as [[g t2v] [_ H]]. apply bind_ok in H as [p2v [H1 H]].
    apply bind_ok in H as [r [H2 H]]. apply bind_ok in H as [varr [H3 H]]. injection H as <-. cbn [a_p2v].
    assert (K : keys_seen p2v) by (apply (rupdate_seen [] t2v [] p2v); [intros p v []|assumption]). split; [assumption|].
    intros r' p E Hp. rewrite H2 in E. apply ok_inj in E. subst r'. destruct (varr_keys _ _ _ _ H3 p Hp) as [v Hv]. apply (K p v Hv).
  Qed.
  Lemma rnext_seen : forall st iw st', keys_seen (a_p2v st) -> rnext_step topo filt detect ti st iw = Ok st' -> keys_seen (a_p2v st') /\ range_seen iw.
  Proof.
    intros st iw st' K0 H. unfold rnext_step in H. apply bind_ok in H as [rk [_ H]]. apply bind_ok in H as [ranks [_ H]]. apply bind_ok in H as [m [_ H]].
    apply bind_ok in H as [al [_ H]]. apply bind_ok in H as [[g' new] [_ H]]. apply bind_ok in H as [p2v [H1 H]]. apply bind_ok in H as [r [H2 H]].
    apply bind_ok in H as [wp [H3 H]]. apply bind_ok in H as [varr [_ H]]. destruct detect; [discriminate|]. injection H as <-. cbn [a_p2v].
    assert (K : keys_seen p2v) by (eapply rupdate_seen; eauto). split; [assumption|].
    intros r' p E Hp. rewrite H2 in E. apply ok_inj in E. subst r'. destruct (wfold_keys _ _ _ _ H3 p Hp) as [v Hv]. apply (K p v Hv).
  Qed.
  Lemma rrest_seen : forall rest st st', keys_seen (a_p2v st) -> foldM (rnext_step topo filt detect ti) rest st = Ok st' -> Forall range_seen rest.
  Proof.
    induction rest as [|iw rest IH]; intros st st' K H; constructor; cbn [foldM] in H; apply bind_ok in H as [st1 [H1 H]];
      destruct (rnext_seen _ _ _ K H1) as [A B]; eauto.
  Qed.
  Theorem ralign_seen : forall st, ralign_all topo filt detect ti = Ok st -> Forall range_seen (ti_wits ti).
  Proof.
    intros st H. unfold ralign_all in H. destruct (ti_wits ti) as [|iw rest]; [discriminate|]. apply bind_ok in H as [st1 [H1 H]].
    destruct (rfirst_seen _ _ H1) as [A B]. constructor; eauto using rrest_seen.
  Qed.
End NoResult.

Lemma rprepare_shape : forall ws h ti h', NoDup (map rw_sigil ws) -> rprepare ws h = Ok (ti, h') ->
  h' = rheap 0 ws h /\ Forall (fun w => rw_toks w <> []) ws /\ ti_ranges ti = rranges 0 ws /\ ti_array ti = map (deref h') (removelast (rlayout 0 0 ws)) /\
  ti_wits ti = map (fun '(sg, ts) => {| iw_sigil := sg; iw_toks := map (deref h') ts |}) (rstamped 0 ws).
Proof.
  intros ws h ti h' ND H. destruct (empty_or_not ws) as [NE|EX].
  2:{ unfold rprepare in H. rewrite rprepare_loop_empty in H by assumption. discriminate. }
  unfold rprepare in H. rewrite rprepare_loop_spec in H by assumption. cbn [bind app] in H.
  destruct (rlayout 0 0 ws) as [|s l] eqn:EL; [discriminate|]. cbn [pop_last] in H. cbn [bind] in H.
  apply bind_ok in H as [sa [_ H]]. apply bind_ok in H as [bs [_ H]]. apply bind_ok in H as [inst [_ H]]. injection H as <- <-.
  cbn [ti_ranges ti_array ti_wits]. auto.
Qed.

Lemma inj_NoDup : forall {A B} (f : A -> B) l, NoDup l -> (forall x y, In x l -> In y l -> f x = f y -> x = y) -> NoDup (map f l).
Proof.
  intros A B f l N. induction N as [|x l H N IH]; intros I; cbn [map]; constructor.
  - intros C. apply in_map_iff in C as [y [E Hy]]. apply I in E; [|right; assumption|left; reflexivity]. congruence.
  - apply IH. intros a b Ha Hb. apply I; right; assumption.
Qed.

Theorem ralign_unshared : forall topo filt detect ws h ti h' st, NoDup (map rw_sigil ws) -> rprepare ws h = Ok (ti, h') ->
  ralign_all topo filt detect ti = Ok st -> NoDup (refs ws).
Proof.
  intros topo filt detect ws h ti h' st ND HP HA. destruct (rprepare_shape _ _ _ _ ND HP) as [Eh [NE [ER [EA EW]]]].
  pose proof (ralign_seen _ _ _ _ _ HA) as F. rewrite Forall_forall in F.
  (* every token's own position is the entry of some token *)
  assert (P : forall s, In s (all_slots 0 ws) -> exists p', entry_pos ti p' = Ok (spos s)).
  { intros s Hs. unfold all_slots in Hs. apply in_flat_map in Hs as [[sg ts] [H1 H2]]. cbn [snd] in H2.
    apply (F {| iw_sigil := sg; iw_toks := map (deref h') ts |}) with (r := map spos ts).
    - rewrite EW. apply in_map_iff. exists (sg, ts). auto.
    - unfold get_range_for_witness. cbn [iw_sigil]. rewrite ER, rranges_eq. rewrite (In_dget _ str_eqb_ok sg (map spos ts)); [reflexivity| |].
      + rewrite map_map. cbn [fst]. rewrite rstamped_sigla. assumption.
      + apply in_map_iff. exists (sg, ts). auto.
    - apply in_map. assumption. }
  (* an entry is the last position of the dictionary *)
  assert (Q : forall p' p, entry_pos ti p' = Ok p -> exists s, In s (all_slots 0 ws) /\ spos s = p /\
     forall s', In s' (all_slots 0 ws) -> sref s' = sref s -> spos s' <= p).
  { intros p' p E. unfold entry_pos in E. apply bind_ok in E as [t [E1 E]]. apply aget_ok in E1. rewrite EA, nth_error_map in E1.
    destruct (nth_error (removelast (rlayout 0 0 ws)) p') as [s0|] eqn:E0; [|discriminate]. cbn in E1. injection E1 as <-.
    apply nth_error_In in E0. assert (I0 : In s0 (rlayout 0 0 ws)).
    { destruct (rlayout 0 0 ws) as [|a l] eqn:EL; [contradiction|]. rewrite (app_removelast_last a) by discriminate. apply in_or_app. auto. }
    apply rlayout_In in I0 as [I0|[i [q [sg ->]]]]; [|discriminate].
    assert (X : exists q t, s0 = STok q t).
    { unfold all_slots in I0. apply in_flat_map in I0 as [[sg ts] [H1 H2]]. cbn [snd] in H2.
      assert (Y : forall c pos, In (sg, ts) (rstamped pos c) -> exists pos' us, ts = slots pos' us).
      { induction c as [|w c IH]; intros pos H; [contradiction|]. destruct H as [H|H]; [injection H as <- <-; eauto|eauto]. }
      destruct (Y _ _ H1) as [pos' [us ->]]. apply slots_tok in H2 as [u [A _]]. eauto. }
    destruct X as [q [t ->]]. cbn [deref tk_data] in E.
    assert (I1 : In (rt_ref t) (refs ws)).
    { rewrite <- (all_refs ws 0). apply (in_map sref) in I0. exact I0. }
    destruct (rheap_last ws 0 h (rt_ref t) I1) as [s [A [B [C D]]]]. rewrite <- Eh in D. unfold dgetE in E. rewrite D in E. cbn [bind] in E.
    apply ok_inj in E. rewrite Nat2Z.id in E. exists s. split; [assumption|]. split; [assumption|]. intros s' H' E'. rewrite <- E. apply C; [assumption|]. congruence. }
  rewrite <- (all_refs ws 0). apply inj_NoDup.
  - apply (NoDup_map_inv spos). apply all_nodup.
  - intros x y Hx Hy E. apply (all_unique ws 0); auto.
    destruct (P x Hx) as [px Ex]. destruct (Q _ _ Ex) as [sx [X1 [X2 X3]]]. pose proof (all_unique ws 0 _ _ X1 Hx X2). subst sx.
    destruct (P y Hy) as [py Ey]. destruct (Q _ _ Ey) as [sy [Y1 [Y2 Y3]]]. pose proof (all_unique ws 0 _ _ Y1 Hy Y2). subst sy.
    specialize (X3 y Hy (eq_sym E)). specialize (Y3 x Hx E). lia.
Qed.

Theorem rcollate_needs : forall cc topo ratio h (data : list (str * list nat)) o x, NoDup (map fst data) -> rcollate cc topo ratio h data o = Ok x -> no_sharing data.
Proof.
  intros cc topo ratio h data o x NS H. unfold rcollate in H. apply bind_ok in H as [ws [H1 H]]. destruct (rwitnesses_shape _ _ _ H1) as [A B].
  apply bind_ok in H as [[g rk] [H _]]. unfold rcollate_graph in H. apply bind_ok in H as [g0 [H _]]. destruct (o_astar o); [discriminate|].
  apply bind_ok in H as [[ti h'] [HP H]]. apply bind_ok in H as [st [HA _]]. unfold no_sharing. rewrite <- B.
  apply (ralign_unshared topo (o_filter o) (o_transp o) ws h ti h' st); auto. rewrite A. assumption.
Qed.

(** ** What is left in the caller's dictionaries *)
Lemma rstamp_keys : forall sg ts pos h r k, k <> k_sigil -> k <> k_pos -> dget str_eqb k (rstamp sg pos ts h r) = dget str_eqb k (h r).
Proof.
  intros sg. induction ts as [|t ts IH]; intros pos h r k N1 N2; [reflexivity|]. cbn [rstamp]. rewrite IH by assumption. unfold hset.
  destruct (r =? rt_ref t) eqn:E; [|reflexivity]. apply Nat.eqb_eq in E. subst r.
  rewrite !(dget_set_other _ str_eqb_ok) by congruence. reflexivity.
Qed.
Lemma rheap_keys : forall c pos h r k, k <> k_sigil -> k <> k_pos -> dget str_eqb k (rheap pos c h r) = dget str_eqb k (h r).
Proof.
  induction c as [|w c IH]; intros pos h r k N1 N2; [reflexivity|]. cbn [rheap]. rewrite IH by assumption. apply rstamp_keys; assumption.
Qed.
Lemma rtoken_init_again : forall c pos h r, rtoken_init (rheap pos c h) r = rtoken_init h r.
Proof.
  intros. unfold rtoken_init, token_init. rewrite !rheap_keys by (unfold k_sigil, k_pos; discriminate).
  destruct (dget str_eqb (lit "n") (h r)); [reflexivity|]. destruct (dget str_eqb (lit "t") (h r)); reflexivity.
Qed.
Lemma mapM_same_fun : forall {A B} (f g : A -> res B) l, (forall x, f x = g x) -> mapM f l = mapM g l.
Proof. intros A B f g l H. induction l as [|x l IH]; [reflexivity|]. cbn [mapM]. rewrite H, IH. reflexivity. Qed.
Lemma rwitnesses_again : forall c pos h data, mapM (rwitness_init (rheap pos c h)) data = mapM (rwitness_init h) data.
Proof.
  intros. apply mapM_same_fun. intros d. unfold rwitness_init. rewrite (mapM_same_fun _ (rtoken_init h)); [reflexivity|]. apply rtoken_init_again.
Qed.

Lemma rstamp_vtok : forall sg ts pos h h', NoDup (map rt_ref ts) -> (forall r, In r (map rt_ref ts) -> h' r = rstamp sg pos ts h r) ->
  map (vtok h') ts = map (fun t => {| t0_str := tk_str t; t0_data := tk_data t |}) (stamp sg pos (map (vtok h) ts)).
Proof.
  intros sg ts pos h h' N H. rewrite <- (rstamp_own sg ts pos h h' N H). clear. revert pos.
  induction ts as [|t ts IH]; intros pos; [reflexivity|]. cbn [map slots deref tk_str tk_data]. rewrite <- IH. reflexivity.
Qed.
Lemma rheap_agree : forall c pos h h0, NoDup (refs c) -> (forall r, In r (refs c) -> h r = h0 r) ->
  forall h', (forall r, In r (refs c) -> h' r = rheap pos c h r) -> agree pos (map (vwit h0) c) (map (vwit h') c).
Proof.
  induction c as [|w c IH]; intros pos h h0 N Hh h' H'; [constructor|]. cbn [refs flat_map] in N. apply NoDup_app_iff in N as [N1 [N2 N3]]. fold (refs c) in N2, N3.
  cbn [map]. constructor; cbn [vwit w_sigil w_toks].
  - reflexivity.
  - rewrite !map_length. reflexivity.
  - rewrite (rstamp_vtok (rw_sigil w) (rw_toks w) pos h h' N1).
    + rewrite stamp_twice. f_equal. apply map_ext_in. intros t Ht. unfold vtok. f_equal. apply Hh. cbn [refs flat_map]. apply in_or_app. left. apply in_map. assumption.
    + intros r Hr. rewrite H'. 2:{ cbn [refs flat_map]. apply in_or_app. auto. } cbn [rheap]. apply rheap_other. apply N3. assumption.
  - rewrite map_length. apply IH with (h := rstamp (rw_sigil w) pos (rw_toks w) h); auto.
    + intros r Hr. rewrite rstamp_other by (intros C; apply (N3 r C); assumption). apply Hh. cbn [refs flat_map]. apply in_or_app. auto.
    + intros r Hr. rewrite H'. 2:{ cbn [refs flat_map]. apply in_or_app. auto. } reflexivity.
Qed.

Lemma rafter_heap : forall h (data : list (str * list nat)) h', NoDup (map fst data) -> rcollate_after h data = Ok h' -> exists ws, mapM (rwitness_init h) data = Ok ws /\ h' = rheap 0 ws h.
Proof.
  intros h data h' ND H. unfold rcollate_after in H. apply bind_ok in H as [ws [H1 H]]. apply bind_ok in H as [[ti h2] [H2 H]]. apply ok_inj in H. subst h2.
  exists ws. split; [assumption|]. destruct (rwitnesses_shape _ _ _ H1) as [A _]. rewrite <- A in ND. apply (rprepare_shape _ _ _ _ ND H2).
Qed.

Theorem rcollate_again : forall cc topo ratio h (data : list (str * list nat)) o h', topo_ok topo -> NoDup (map fst data) -> ~ In ([] : str) (map fst data) -> no_sharing data ->
  rcollate_after h data = Ok h' -> rcollate cc topo ratio h' data o = rcollate cc topo ratio h data o.
Proof.
  intros cc topo ratio h data o h' TO NS NE NR H. rewrite !rcollate_unshared by assumption. unfold collate_dict. rewrite !create_value.
  destruct (rafter_heap _ _ _ NS H) as [ws [E ->]]. rewrite rwitnesses_again, E. cbn [bind]. apply agree_collate.
  destruct (rwitnesses_shape _ _ _ E) as [_ B]. unfold no_sharing in NR. rewrite <- B in NR.
  apply rheap_agree with (h := h); auto.
Qed.

Lemma rstamp_entries : forall sg ts1 t ts2 pos h, ~ In (rt_ref t) (map rt_ref ts2) ->
  dget str_eqb k_sigil (rstamp sg pos (ts1 ++ t :: ts2) h (rt_ref t)) = Some (JStr sg) /\
  dget str_eqb k_pos (rstamp sg pos (ts1 ++ t :: ts2) h (rt_ref t)) = Some (JNum (Z.of_nat (pos + length ts1))).
Proof.
  intros sg. induction ts1 as [|u ts1 IH]; intros t ts2 pos h N; cbn [app rstamp length].
  - rewrite rstamp_other by assumption. rewrite hset_same, Nat.add_0_r. split.
    + rewrite (dget_set_other _ str_eqb_ok) by discriminate. apply (dget_set_same _ str_eqb_ok).
    + apply (dget_set_same _ str_eqb_ok).
  - destruct (IH t ts2 (pos + 1) (hset h (rt_ref u) (dset str_eqb k_pos (JNum (Z.of_nat pos)) (dset str_eqb k_sigil (JStr sg) (h (rt_ref u))))) N) as [A B].
    split; [exact A|]. rewrite B. do 3 f_equal. lia.
Qed.
Lemma rheap_app : forall c1 c2 pos h, rheap pos (c1 ++ c2) h = rheap (pos + length (refs c1) + length c1) c2 (rheap pos c1 h).
Proof.
  induction c1 as [|w c1 IH]; intros c2 pos h; cbn [app rheap refs flat_map length].
  - rewrite !Nat.add_0_r. reflexivity.
  - rewrite IH, app_length, map_length. fold (refs c1). f_equal. lia.
Qed.
Lemma mapM_split : forall {A B} (f : A -> res B) l1 l2 r, mapM f (l1 ++ l2) = Ok r ->
  exists r1 r2, r = r1 ++ r2 /\ mapM f l1 = Ok r1 /\ mapM f l2 = Ok r2.
Proof.
  intros A B f. induction l1 as [|x l1 IH]; intros l2 r H; cbn [app mapM] in *.
  - exists [], r. auto.
  - apply bind_ok in H as [y [H1 H]]. apply bind_ok in H as [ys [H2 H]]. apply ok_inj in H. subst r.
    destruct (IH _ _ H2) as [r1 [r2 [-> [E1 E2]]]]. exists (y :: r1), r2. rewrite H1, E1. auto.
Qed.

Theorem rafter_entries : forall h (data : list (str * list nat)) h', NoDup (map fst data) -> no_sharing data -> rcollate_after h data = Ok h' ->
  forall before sg refs1 r refs2 after, data = before ++ (sg, refs1 ++ r :: refs2) :: after ->
    dget str_eqb k_sigil (h' r) = Some (JStr sg) /\
    dget str_eqb k_pos (h' r) = Some (JNum (Z.of_nat (length (flat_map snd before) + length before + length refs1))).
Proof.
  intros h data h' ND NR H before sg refs1 r refs2 after E. destruct (rafter_heap _ _ _ ND H) as [ws [W ->]]. clear ND H. subst data.
  apply mapM_split in W as [ws1 [ws2 [-> [W1 W2]]]]. cbn [mapM] in W2. apply bind_ok in W2 as [w [W2 W3]]. apply bind_ok in W3 as [ws3 [W3 W4]].
  apply ok_inj in W4. subst ws2. destruct (rwitnesses_shape _ _ _ W1) as [A1 B1]. destruct (rwitnesses_shape _ _ _ W3) as [A3 B3].
  destruct (rwitness_shape _ _ _ W2) as [A2 B2]. cbn [fst snd] in A2, B2. rewrite rheap_app. cbn [rheap].
  unfold no_sharing in NR. rewrite flat_map_app in NR. cbn [flat_map snd] in NR. apply NoDup_app_iff in NR as [_ [NR _]].
  apply NoDup_app_iff in NR as [NR1 [_ NR2]]. rewrite rheap_other.
  2:{ rewrite B3. apply NR2. apply in_or_app. right. left. reflexivity. }
  apply map_eq_app in B2 as [ts1 [ts2 [E2 [F1 F2]]]]. destruct ts2 as [|t ts2]; [discriminate|]. cbn [map] in F2. injection F2 as F2 F3.
  rewrite E2, A2, <- F2. assert (NT : ~ In (rt_ref t) (map rt_ref ts2)).
  { rewrite F2, F3. apply NoDup_remove_2 in NR1. intros C. apply NR1. apply in_or_app. auto. }
  destruct (rstamp_entries sg ts1 t ts2 (0 + length (refs ws1) + length ws1) (rheap 0 ws1 h) NT) as [X Y]. split; [exact X|]. rewrite Y.
  do 3 f_equal. assert (length ws1 = length before) by (rewrite <- (map_length rw_sigil), A1, map_length; reflexivity).
  rewrite <- B1, <- F1, map_length. lia.
Qed.
