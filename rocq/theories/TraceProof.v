(** Proofs about the progress report (C113). *)
From Verif Require Import Py Lib SuffixModel TraceModel.
From Coq Require Import Sorted.
Open Scope list_scope.
Open Scope nat_scope.

Lemma n02_bounds : forall n, 2 <= n -> 1 <= (n + 2) / 3 + n / 3 < n.
Proof.
  intros n L. pose proof (Nat.div_mod (n + 2) 3). pose proof (Nat.mod_upper_bound (n + 2) 3).
  pose proof (Nat.div_mod n 3). pose proof (Nat.mod_upper_bound n 3). lia.
Qed.

Lemma nb_loop_more : forall f n, n <= f -> nb_loop f n = nb_operations n.
Proof.
  unfold nb_operations. induction f as [f IH] using lt_wf_ind. intros n L. destruct f as [|f]; [replace n with 0 by lia; reflexivity|].
  destruct n as [|n]; [reflexivity|]. cbn [nb_loop]. destruct (Nat.ltb_spec (S n) 2); [reflexivity|].
  pose proof (n02_bounds (S n) H). f_equal.
  transitivity (nb_loop ((S n + 2) / 3 + S n / 3) ((S n + 2) / 3 + S n / 3)); [apply IH; lia|].
  symmetry. destruct (Nat.eq_dec n f) as [->|N]; [|apply IH; lia].
  destruct (Nat.eq_dec ((S f + 2) / 3 + S f / 3) f) as [E|N]; [rewrite E; reflexivity|]. apply IH; lia.
Qed.

Lemma nb_unfold : forall n, 2 <= n -> nb_operations n = 3 * ((n + 2) / 3 + n / 3) + (n + 2) / 3 + nb_operations ((n + 2) / 3 + n / 3).
Proof.
  intros n L. unfold nb_operations at 1. destruct n as [|n]; [lia|]. cbn [nb_loop]. destruct (Nat.ltb_spec (S n) 2); [lia|].
  pose proof (n02_bounds (S n) L). rewrite nb_loop_more by lia. reflexivity.
Qed.

Lemma nb_linear : forall n, nb_operations n <= 8 * n.
Proof.
  induction n as [n IH] using lt_wf_ind. destruct (le_lt_dec 24 n) as [L|L].
  - rewrite nb_unfold by lia. pose proof (n02_bounds n ltac:(lia)). specialize (IH ((n + 2) / 3 + n / 3) ltac:(lia)).
    pose proof (Nat.div_mod (n + 2) 3). pose proof (Nat.mod_upper_bound (n + 2) 3).
    pose proof (Nat.div_mod n 3). pose proof (Nat.mod_upper_bound n 3). lia.
  - clear IH. do 24 (destruct n as [|n]; [vm_compute; lia|]). lia.
Qed.

Section Trace.
  Variable report : nat -> nat -> res unit.

  Lemma tell_ok : forall ops total log log', tell report ops total log = Ok log' -> log' = log ++ [(ops, total)].
  Proof. intros ops total log log' H. unfold tell in H. destruct (report ops total); cbn [bind] in H; [injection H as <-; reflexivity|discriminate]. Qed.

  (** What was reported goes up from [a] to [b]. *)
  Definition rises (a : nat) (l : list nat) (b : nat) : Prop := StronglySorted le l /\ Forall (fun x => a <= x <= b) l.

  Lemma rises_one : forall a x b, a <= x <= b -> rises a [x] b.
  Proof. intros. split; repeat constructor; lia. Qed.

  Lemma rises_app : forall a l b m c, rises a l b -> rises b m c -> a <= b <= c -> rises a (l ++ m) c.
  Proof.
    intros a l b m c [S1 F1] [S2 F2] L. split.
    - induction l as [|x l IH]; [exact S2|]. cbn [app]. inversion S1; subst. inversion F1; subst. constructor; [apply IH; assumption|].
      apply Forall_app. split; [assumption|]. eapply Forall_impl; [|exact F2]. intros y Hy. cbn beta in *. lia.
    - apply Forall_app. split; (eapply Forall_impl; [|eassumption]); intros y Hy; cbn beta in *; lia.
  Qed.

  Lemma one_name : forall s n0 SA12 s12 name c s12', foldM (name_step s n0 SA12) (seq 0 1) (0, None, s12) = Ok (name, c, s12') -> name = 1.
  Proof.
    intros s n0 SA12 s12 name c s12' H. cbn [seq foldM] in H. unfold name_step in H.
    destruct (aget SA12 0) as [p|]; cbn [bind] in H; [|discriminate].
    destruct (if p mod 3 =? 1 then aset s12 (p / 3) (0 + 1) else aset s12 (p / 3 + n0) (0 + 1)); cbn [bind] in H; [|discriminate].
    injection H as <- _ _. reflexivity.
  Qed.

  Ltac step H := match type of H with
    | bind (tell _ _ _ _) _ = Ok _ => let l := fresh "l" in let E := fresh "TE" in apply bind_ok in H as [l [E H]]; apply tell_ok in E; subst l
    | bind ?m _ = Ok _ => let x := fresh "x" in let E := fresh "E" in apply bind_ok in H as [x [E H]]; cbn [dc3]; try rewrite E; cbn [bind]
    end.

  Lemma traced_sound : forall f s SA n K ops total log SA' ops' log', dc3_traced report f s SA n K ops total log = Ok (SA', ops', log') ->
    dc3 f s SA n K = Ok SA' /\ (2 <= n -> ops' = ops + nb_operations n) /\ ops <= ops' /\
    exists more, log' = log ++ map (fun x => (x, total)) (more ++ [ops']) /\ rises ops more ops'.
  Proof.
    induction f as [|f IH]; intros s SA n K ops total log SA' ops' log' H; [discriminate|]. cbn [dc3_traced dc3] in H |- *. cbv zeta in H |- *.
    set (n0 := (n + 2) / 3) in *. set (n02 := n0 + n / 3) in *.
    step H. step H. step H. step H. step H. step H. step H. step H. destruct x2 as [[name c] s12].
    apply bind_ok in H as [[[[s12' SA12'] ops2] log2] [B H]].
    assert (Q : (if name <? n02 then SA12 <- dc3 f s12 x1 n02 (name + 1) ;;
          '(s12, _) <- foldM (fun '(s12, i) p => s12' <- aset s12 p (i + 1) ;; Ok (s12', i + 1)) (firstn n02 SA12) (s12, 0) ;;
          Ok (s12, SA12)
        else
          '(SA12, _) <- foldM (fun '(SA12, i) x => SA12' <- aset SA12 (if x =? 0 then length SA12 - 1 else x - 1) i ;; Ok (SA12', i + 1))
                              (firstn n02 s12) (x1, 0) ;;
          Ok (s12, SA12)) = Ok (s12', SA12') /\
      ops + n02 + n02 + n02 <= ops2 /\ (2 <= n -> ops2 = ops + n02 + n02 + n02 + nb_operations n02) /\
      exists more, log2 = ((((log ++ [(ops, total)]) ++ [(ops + n02, total)]) ++ [(ops + n02 + n02, total)]) ++ [(ops + n02 + n02 + n02, total)]) ++ map (fun x => (x, total)) more /\ rises (ops + n02 + n02 + n02) more ops2).
    { clear H. destruct (Nat.ltb_spec name n02) as [L|L].
      - apply bind_ok in B as [[[SB opsB] logB] [B1 B]]. destruct (IH _ _ _ _ _ _ _ _ _ _ B1) as [D [T [G [more [R1 R2]]]]]. rewrite D. cbn [bind].
        apply bind_ok in B as [l [T1 B]]. apply tell_ok in T1. subst l.
        apply bind_ok in B as [[s3 i3] [E3 B]]. rewrite E3. cbn [bind]. injection B as <- <- <- <-. split; [reflexivity|]. split; [exact G|]. split.
        + intros L2. apply T. destruct n02 as [|[|k]]; [lia| |lia]. pose proof (one_name _ _ _ _ _ _ _ E2). lia.
        + exists ((more ++ [opsB]) ++ [opsB]). split; [rewrite R1, (map_app _ (more ++ [opsB])), <- !app_assoc; reflexivity|].
          apply (rises_app _ _ opsB); [apply (rises_app _ _ opsB); [exact R2|apply rises_one; lia|lia]|apply rises_one; lia|lia].
      - apply bind_ok in B as [l [T1 B]]. apply tell_ok in T1. subst l.
        apply bind_ok in B as [[s3 i3] [E3 B]]. rewrite E3. cbn [bind]. injection B as <- <- <- <-. split; [reflexivity|]. split; [lia|]. split; [reflexivity|].
        exists [ops + n02 + n02 + n02 + nb_operations n02]. split; [reflexivity|]. apply rises_one. lia. }
    destruct Q as [Q1 [Q2 [Q3 [more [Q4 Q5]]]]]. rewrite Q1. cbn [bind].
    apply bind_ok in H as [[s0 j0] [E3 H]]. rewrite E3. cbn [bind].
    apply bind_ok in H as [SA0 [E4 H]]. rewrite E4. cbn [bind].
    apply bind_ok in H as [l [T1 H]]. apply tell_ok in T1. subst l.
    apply bind_ok in H as [SAm [E5 H]]. injection H as <- <- <-. split; [exact E5|]. split.
    { intros L. rewrite (nb_unfold n L), (Q3 L). fold n0. fold n02. lia. }
    split; [lia|]. exists ([ops] ++ [ops + n02] ++ [ops + n02 + n02] ++ [ops + n02 + n02 + n02] ++ more). split; [rewrite Q4, !map_app, <- !app_assoc; reflexivity|].
    apply (rises_app _ _ ops); [apply rises_one; lia| |lia].
    apply (rises_app _ _ (ops + n02)); [apply rises_one; lia| |lia].
    apply (rises_app _ _ (ops + n02 + n02)); [apply rises_one; lia| |lia].
    apply (rises_app _ _ (ops + n02 + n02 + n02)); [apply rises_one; lia| |lia].
    destruct Q5 as [S5 F5]. split; [exact S5|]. eapply Forall_impl; [|exact F5]. intros y Hy. cbn beta in *. lia.
  Qed.

  Hypothesis fine : forall a b, report a b = Ok tt.

  Lemma tell_fine : forall ops total log, tell report ops total log = Ok (log ++ [(ops, total)]).
  Proof. intros. unfold tell. rewrite fine. reflexivity. Qed.

  Lemma traced_complete : forall f s SA n K ops total log SA', dc3 f s SA n K = Ok SA' ->
    exists ops' log', dc3_traced report f s SA n K ops total log = Ok (SA', ops', log').
  Proof.
    induction f as [|f IH]; intros s SA n K ops total log SA' H; [discriminate|]. cbn [dc3_traced dc3] in H |- *. cbv zeta in H |- *.
    rewrite tell_fine. cbn [bind].
    apply bind_ok in H as [x [E H]]. rewrite E. cbn [bind]. rewrite tell_fine. cbn [bind].
    apply bind_ok in H as [x0 [E0 H]]. rewrite E0. cbn [bind]. rewrite tell_fine. cbn [bind].
    apply bind_ok in H as [x1 [E1 H]]. rewrite E1. cbn [bind]. rewrite tell_fine. cbn [bind].
    apply bind_ok in H as [[[name c] s12] [E2 H]]. rewrite E2. cbn [bind].
    apply bind_ok in H as [[s12' SA12'] [B H]].
    destruct (name <? (n + 2) / 3 + n / 3).
    - apply bind_ok in B as [SB [B1 B]]. destruct (IH _ _ _ _ (ops + ((n + 2) / 3 + n / 3) + ((n + 2) / 3 + n / 3) + ((n + 2) / 3 + n / 3)) total ((((log ++ [(ops, total)]) ++ [(ops + ((n + 2) / 3 + n / 3), total)]) ++ [(ops + ((n + 2) / 3 + n / 3) + ((n + 2) / 3 + n / 3), total)]) ++ [(ops + ((n + 2) / 3 + n / 3) + ((n + 2) / 3 + n / 3) + ((n + 2) / 3 + n / 3), total)]) _ B1) as [opsB [logB D]].
      rewrite D. cbn [bind]. rewrite tell_fine. cbn [bind].
      apply bind_ok in B as [[s3 i3] [E3 B]]. rewrite E3. cbn [bind]. injection B as <- <-.
      apply bind_ok in H as [[s0 j0] [E4 H]]. rewrite E4. cbn [bind]. apply bind_ok in H as [SA0 [E5 H]]. rewrite E5. cbn [bind]. rewrite tell_fine. cbn [bind].
      rewrite H. cbn [bind]. eauto.
    - rewrite tell_fine. cbn [bind].
      apply bind_ok in B as [[s3 i3] [E3 B]]. rewrite E3. cbn [bind]. injection B as <- <-.
      apply bind_ok in H as [[s0 j0] [E4 H]]. rewrite E4. cbn [bind]. apply bind_ok in H as [SA0 [E5 H]]. rewrite E5. cbn [bind]. rewrite tell_fine. cbn [bind].
      rewrite H. cbn [bind]. eauto.
  Qed.
End Trace.

(** ** The reports of LCP *)
Lemma seq_filter_sorted : forall (p : nat -> bool) n a, StronglySorted lt (filter p (seq a n)) /\ Forall (fun i => a <= i < a + n) (filter p (seq a n)).
Proof.
  induction n as [|n IH]; intros a; cbn [seq filter]; [split; constructor|]. destruct (IH (S a)) as [S F].
  assert (F' : Forall (fun i => a <= i < a + Datatypes.S n) (filter p (seq (Datatypes.S a) n))) by (eapply Forall_impl; [|exact F]; intros y Hy; cbn beta in *; lia).
  destruct (p a); [|split; assumption]. split; constructor; [exact S| |lia|exact F']. eapply Forall_impl; [|exact F]. intros y Hy. cbn beta in *. lia.
Qed.

Lemma lcp_rising : forall n, exists done, lcp_reports n = map (fun x => (x, n)) (done ++ [n]) /\ StronglySorted le (done ++ [n]) /\ length done <= 199.
Proof.
  intros n. unfold lcp_reports. cbv zeta. set (delta := Nat.max (n / 100) 1). set (l := filter (fun i => i mod delta =? 0) (seq 0 n)).
  destruct (seq_filter_sorted (fun i => i mod delta =? 0) n 0) as [S F]. fold l in S, F. exists (map (fun i => i + 1) l). split.
  - rewrite map_app, map_map. reflexivity.
  - split.
    + induction S as [|x r S IH G]; cbn [map app]; [repeat constructor|]. inversion F as [|? ? Fx Fr]; subst. constructor; [apply IH; assumption|].
      apply Forall_app. split; [|repeat constructor; lia]. apply Forall_map. eapply Forall_impl; [|exact G]. intros y Hy. cbn beta in *. lia.
    + rewrite map_length. rewrite <- (map_length (fun i => i / delta) l). rewrite <- (seq_length 199 0). apply NoDup_incl_length.
      * assert (M : Forall (fun i => i mod delta = 0) l).
        { apply Forall_forall. intros i Hi. apply filter_In in Hi as [_ Hi]. apply Nat.eqb_eq in Hi. exact Hi. }
        assert (D : delta <> 0) by (unfold delta; lia).
        clear F. induction S as [|x r S IH G]; cbn [map]; [constructor|]. inversion M as [|? ? Mx Mr]; subst. constructor; [|apply IH; assumption].
        intros I. apply in_map_iff in I as [y [E Hy]]. rewrite Forall_forall in G, Mr. specialize (G y Hy). specialize (Mr y Hy).
        pose proof (Nat.div_mod y delta D). pose proof (Nat.div_mod x delta D). rewrite E in *. lia.
      * intros q Hq. apply in_map_iff in Hq as [i [<- Hi]]. apply in_seq. rewrite Forall_forall in F. specialize (F i Hi). split; [lia|]. cbn [Nat.add].
        apply Nat.div_lt_upper_bound; [unfold delta; lia|].
        pose proof (Nat.div_mod n 100 ltac:(lia)). pose proof (Nat.mod_upper_bound n 100 ltac:(lia)). unfold delta. lia.
Qed.
