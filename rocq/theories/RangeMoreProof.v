(** Proofs about the display of RangeSets, their constructors and slices. *)
From Verif Require Import Py Lib TokenModel RangeSetModel RangeMoreModel RangeSpec RangeMoreSpec RangeProof.
From Coq Require Import Sorting.Sorted.
From Coq Require Decimal DecimalN.
Open Scope list_scope.
Open Scope Z_scope.

Section Cc.
  Variable cc : cclass.
  Hypothesis DS : digits_not_space cc.

  Lemma canonical_uint : forall z, canonical (uint_chars (N.to_uint (Z.abs_N z))).
  Proof.
    intros z. split; [|split].
    - pose proof (width_pos z) as W. unfold width in W. intro E. rewrite E in W. cbn in W. lia.
    - apply uint_chars_digits.
    - intros E. destruct (Z.eq_dec z 0) as [->|N]; [reflexivity|]. exfalso.
      destruct (head_digit (Z.abs z)) as [c [s [Q1 Q2]]]; [lia|]. replace (Z.abs_N (Z.abs z)) with (Z.abs_N z) in Q1 by lia. rewrite Q1 in E. cbn in E. lia.
  Qed.

  Lemma fmt_neg : forall p z, z < 0 -> fmt p z = 45%N :: fmt (p - 1) (- z).
  Proof.
    intros p z N. unfold fmt. replace (z <? 0) with true by (symmetry; apply Z.ltb_lt; assumption). replace (- z <? 0) with false by (symmetry; apply Z.ltb_ge; lia).
    replace (Z.abs_N (- z)) with (Z.abs_N z) by lia. cbn [app length]. do 3 f_equal. lia.
  Qed.

  Lemma int_neg_text : forall s u, iss cc 45%N = false -> Forall is_digit s -> read_digits s = Some u -> py_int cc (45%N :: s) = Some (- Z.of_N (N.of_uint u)).
  Proof.
    intros s u NS F R. unfold py_int.
    assert (E : strip cc (45%N :: s) = 45%N :: s).
    { unfold strip. assert (FS : Forall (fun c => iss cc c = false) (45%N :: s)).
      { constructor; [assumption|]. apply Forall_forall. intros c Hc. rewrite Forall_forall in F. apply DS. apply F. assumption. }
      assert (RS : rstrip cc (45%N :: s) = 45%N :: s).
      { unfold rstrip. rewrite (span_none (iss cc) (rev (45%N :: s))) by (apply Forall_forall; intros c Hc; rewrite Forall_forall in FS; apply FS; apply in_rev; assumption). cbn [snd]. apply rev_involutive. }
      rewrite RS, span_none by assumption. reflexivity. }
    rewrite E. cbn [N.eqb Pos.eqb]. rewrite R. reflexivity.
  Qed.

  Lemma fmt_read : forall p z, 0 <= z -> exists u, read_digits (fmt p z) = Some u /\ N.of_uint u = Z.to_N z.
  Proof.
    intros p z P. rewrite fmt_nonneg by assumption.
    destruct (read_zeros (Z.to_nat p - width z) (uint_chars (N.to_uint (Z.abs_N z))) (N.to_uint (Z.abs_N z))) as [u [E1 E2]].
    - apply (proj1 (canonical_uint z)).
    - apply uint_chars_digits.
    - apply read_uint. apply to_uint_not_nil.
    - exists u. split; [assumption|]. rewrite E2, DecimalN.Unsigned.of_to. lia.
  Qed.

  Theorem padded : forall p z, iss cc 45%N = false -> padded_text cc p z (fmt p z).
  Proof.
    intros p z NS. split.
    - destruct (Z_lt_le_dec z 0) as [N|P].
      + rewrite fmt_neg by assumption. destruct (fmt_read (p - 1) (- z)) as [u [R1 R2]]; [lia|].
        rewrite (int_neg_text _ u NS); [|apply fmt_digits; lia|assumption]. f_equal. lia.
      + destruct (fmt_read p z P) as [u [R1 R2]]. rewrite (int_digits cc DS _ u); [|apply fmt_digits; assumption|assumption]. f_equal. lia.
    - set (sg := if z <? 0 then [45%N] else []).
      exists (Z.to_nat p - length sg - length (uint_chars (N.to_uint (Z.abs_N z))))%nat, (uint_chars (N.to_uint (Z.abs_N z))).
      split; [reflexivity|]. split; [apply canonical_uint|]. unfold fmt. fold sg. rewrite !app_length, repeat_length. lia.
  Qed.

  (** ** Numbers with underscores *)
  Lemma read_underscore : forall s t, s <> [] -> t <> [] -> Forall is_digit s -> Forall is_digit t -> forall rest, rest = [] \/ hd 0%N rest = 95%N ->
    read_digits (s ++ 95%N :: t ++ rest) = read_digits (s ++ t ++ rest).
  Proof.
    induction s as [|c s IH]; intros t Ns Nt Fs Ft rest R; [congruence|]. inversion Fs; subst. cbn [app read_digits].
    destruct (digit_of c) as [d|] eqn:D; [|reflexivity].
    destruct s as [|c2 s].
    - cbn [app]. destruct t as [|c3 t]; [congruence|]. cbn [app]. cbn [N.eqb Pos.eqb]. inversion Ft; subst.
      replace (N.eqb c3 95) with false by (symmetry; apply N.eqb_neq; unfold is_digit in *; lia). reflexivity.
    - cbn [app]. inversion H2; subst. replace (N.eqb c2 95) with false by (symmetry; apply N.eqb_neq; unfold is_digit in *; lia).
      change (c2 :: s ++ 95%N :: t ++ rest) with ((c2 :: s) ++ 95%N :: t ++ rest). change (c2 :: s ++ t ++ rest) with ((c2 :: s) ++ t ++ rest).
      rewrite IH; auto. discriminate.
  Qed.
  Lemma read_groups : forall gs s, s <> [] -> Forall is_digit s -> Forall (fun g => g <> [] /\ Forall is_digit g) gs ->
    read_digits (s ++ flat_map (fun g => 95%N :: g) gs) = read_digits (s ++ concat gs).
  Proof.
    induction gs as [|g gs IH]; intros s Ns Fs FG; [reflexivity|]. inversion FG as [|? ? [G1 G2] FG']; subst. cbn [flat_map concat].
    change ((95%N :: g) ++ flat_map (fun g0 : list N => 95%N :: g0) gs) with (95%N :: g ++ flat_map (fun g0 : list N => 95%N :: g0) gs).
    rewrite read_underscore; auto.
    - rewrite app_assoc, IH, <- app_assoc; auto; [destruct s; cbn; congruence|apply Forall_app; auto].
    - destruct gs; [left|right]; reflexivity.
  Qed.
  Lemma join_groups : forall g gs, str_join [95%N] (g :: gs) = g ++ flat_map (fun g => 95%N :: g) gs.
  Proof.
    intros g gs. revert g. induction gs as [|h gs IH]; intros g; [cbn; rewrite app_nil_r; reflexivity|].
    change (str_join [95%N] (g :: h :: gs)) with (g ++ [95%N] ++ str_join [95%N] (h :: gs)). rewrite IH. reflexivity.
  Qed.
End Cc.

(** ** Constructors *)
Lemma subrange_asc : forall cc r s r', ascending (rs_elems r) -> parse_subrange cc r s = Ok r' -> ascending (rs_elems r') /\ rs_step r' = rs_step r.
Proof.
  intros cc r s r' A H. unfold parse_subrange in H. apply bind_ok in H as [[b st] [_ H]]. apply bind_ok in H as [[bg en] [_ H]].
  apply bind_ok in H as [z [_ H]]. apply bind_ok in H as [[start pad] [_ H]]. apply bind_ok in H as [e [_ H]]. apply bind_ok in H as [stop [_ H]].
  destruct (_ || _); [discriminate|]. unfold add_range in H.
  destruct (negb (start <? stop + 1)); [discriminate|]. destruct (negb (0 <? st)); [discriminate|]. destruct (negb (0 <=? pad)); [discriminate|].
  destruct (negb (stop + 1 - start <? e9)); [discriminate|]. injection H as <-. split; [|reflexivity]. cbn [rs_elems]. apply set_update_spec. assumption.
Qed.
Lemma parse_asc : forall cc s a r, parse cc s a = Ok r -> ascending (rs_elems r).
Proof.
  intros cc s a r H. unfold parse in H. assert (A : ascending (rs_elems (rs_empty a))) by (cbn; constructor). revert A H.
  generalize (rs_empty a). induction (split_on 44 s) as [|x l IH]; intros r0 A H; [injection H as <-; assumption|].
  cbn [foldM] in H. apply bind_ok in H as [r1 [H1 H]]. apply (IH r1); [|assumption]. apply (subrange_asc cc r0 x); assumption.
Qed.

(** ** Slices *)
Lemma py_range_In : forall a b s x, 0 < s -> (In x (py_range a b s) <-> exists j, 0 <= j /\ x = a + s * j /\ x < b).
Proof.
  intros a b s x Hs. destruct (range_count a b s Hs) as [n [E [L1 L2]]]. rewrite E, arith_In. split.
  - intros [j [Lj ->]]. exists (Z.of_nat j). split; [lia|]. split; [reflexivity|]. nia.
  - intros [j [J1 [-> J2]]]. exists (Z.to_nat j). split; [nia|]. rewrite Z2Nat.id by lia. reflexivity.
Qed.
Lemma py_range_any_In : forall a b s x, s <> 0 -> (In x (py_range_any a b s) <-> exists j, 0 <= j /\ x = a + s * j /\ (if 0 <? s then x < b else b < x)).
Proof.
  intros a b s x Hs. unfold py_range_any. destruct (0 <? s) eqn:E.
  - apply Z.ltb_lt in E. apply py_range_In. assumption.
  - apply Z.ltb_ge in E. rewrite in_map_iff. split.
    + intros [y [<- H]]. apply py_range_In in H as [j [J1 [J2 J3]]]; [|lia]. exists j. split; [assumption|]. split; lia.
    + intros [j [J1 [J2 J3]]]. exists (- x). split; [lia|]. apply py_range_In; [lia|]. exists j. split; [assumption|]. split; lia.
Qed.

Lemma clamp_up : forall n i, 0 <= n -> clamp 0 n n i = Z.min n (Z.max 0 (meant n i)).
Proof. intros n i H. unfold clamp, meant. destruct (i <? 0); cbn zeta; destruct (_ <? 0) eqn:E1; try destruct (n <? _) eqn:E2; rewrite ?Z.ltb_lt, ?Z.ltb_ge in *; lia. Qed.
Lemma clamp_down : forall n i, 0 <= n -> clamp (-1) (n - 1) n i = Z.max (-1) (Z.min (n - 1) (meant n i)).
Proof. intros n i H. unfold clamp, meant. destruct (i <? 0); cbn zeta; destruct (_ <? -1) eqn:E1; try destruct (n - 1 <? _) eqn:E2; rewrite ?Z.ltb_lt, ?Z.ltb_ge in *; lia. Qed.

Theorem slice_spec : forall l start stop step, opt_or step 1 <> 0 -> exists r, py_slice l start stop step = Ok r /\
  forall x, In x r <-> exists k, nth_error l k = Some x /\ chosen (Z.of_nat (length l)) start stop (opt_or step 1) (Z.of_nat k).
Proof.
  intros l start stop step Hs. unfold py_slice. set (s := opt_or step 1) in *. apply Z.eqb_neq in Hs as Hs'. rewrite Hs'.
  set (n := Z.of_nat (length l)). assert (Pn : 0 <= n) by lia.
  destruct (slice_bounds_of n start stop s) as [a b] eqn:B. eexists. split; [reflexivity|].
  unfold slice_bounds_of in B.
  assert (G : forall i, In i (py_range_any a b s) /\ i < n <-> chosen n start stop s i).
  { intros i. rewrite py_range_any_In by assumption. unfold chosen.
    destruct (0 <? s) eqn:Es; [apply Z.ltb_lt in Es|apply Z.ltb_ge in Es]; injection B as <- <-; rewrite ?clamp_up, ?clamp_down by assumption.
    - split.
      + intros [[j [J1 [J2 J3]]] Li].
        destruct start as [st|], stop as [en|]; rewrite ?clamp_up in * by assumption; (split; [nia|]); (split; [exists j; split; [assumption|]; nia|]); try exact I; lia.
      + intros [C1 [[j [J1 J2]] C3]]. split; [|lia]. exists j. split; [assumption|].
        destruct start as [st|], stop as [en|]; rewrite ?clamp_up in * by assumption; split; nia.
    - split.
      + intros [[j [J1 [J2 J3]]] Li].
        destruct start as [st|], stop as [en|]; rewrite ?clamp_down in * by assumption; (split; [nia|]); (split; [exists j; split; [assumption|]; nia|]); try exact I; lia.
      + intros [C1 [[j [J1 J2]] C3]]. split; [|lia]. exists j. split; [assumption|].
        destruct start as [st|], stop as [en|]; rewrite ?clamp_down in * by assumption; split; nia. }
  assert (GP : forall i, In i (py_range_any a b s) -> 0 <= i).
  { intros i. rewrite py_range_any_In by assumption.
    destruct (0 <? s) eqn:Es; [apply Z.ltb_lt in Es|apply Z.ltb_ge in Es]; injection B as <- <-; intros [j [J1 [J2 J3]]].
    - destruct start as [st|]; rewrite ?clamp_up in * by assumption; nia.
    - destruct stop as [st|]; rewrite ?clamp_down in * by assumption; lia. }
  intros x. rewrite in_flat_map. split.
  - intros [i [Hi Hx]]. destruct (nth_error l (Z.to_nat i)) as [y|] eqn:E; [|destruct Hx]. destruct Hx as [<-|[]].
    assert (Li : (Z.to_nat i < length l)%nat) by (apply nth_error_Some; congruence). pose proof (GP i Hi).
    exists (Z.to_nat i). split; [assumption|]. rewrite Z2Nat.id by assumption. apply G. split; [assumption|lia].
  - intros [k [Hk C]]. apply G in C as [C1 C2]. exists (Z.of_nat k). split; [assumption|]. rewrite Nat2Z.id, Hk. left. reflexivity.
Qed.
