(** Properties C30, C31, C48: RangeSet. *)
From Verif Require Import Py TokenModel RangeSetModel RangeSpec RangeProof Samples.
From Coq Require Import Sorting.Sorted.
Open Scope list_scope.
Open Scope Z_scope.

(** ** C30: contiguous ranges.  The ranges [contiguous()] iterates over are runs of consecutive
    integers, in ascending order, maximal (at least one integer is missing between two of
    them), and together they are the set. *)
Theorem C30_contiguous : forall r rs, ascending (rs_elems r) -> rs_contiguous r = Ok rs ->
  concat (map rs_elems rs) = rs_elems r /\ Forall consecutive (map rs_elems rs) /\ StronglySorted gap (map rs_elems rs).
Proof. exact contiguous_shape. Qed.
Print Assumptions C30_contiguous.

(** It succeeds for every set of non-negative integers that spans less than 10^9. *)
Theorem C30_contiguous_total_partial : forall r, ascending (rs_elems r) -> 0 <= rs_padding r -> (forall x, has r x -> 0 <= x) ->
  (forall x y, has r x -> has r y -> y - x < e9 - 1) -> exists rs, rs_contiguous r = Ok rs.
Proof.
  intros r A Hp P B. destruct (contiguous_total r A P Hp) as [rs [E _]]; [|exists rs; exact E].
  apply Forall_forall. intros s Hs. destruct (contiguous_spec r A) as [F [R _]]. rewrite Forall_forall in R. destruct (R s Hs) as [R1 R2].
  assert (G : forall x, sl_start s <= x < sl_stop s -> has r x).
  { intros x Hx. unfold has. rewrite <- F. apply in_flat_map. exists s. split; [assumption|]. unfold expand. rewrite R2, zseq_range. apply zseq_In. assumption. }
  assert (G1 : has r (sl_start s)) by (apply G; lia). assert (G2 : has r (sl_stop s - 1)) by (apply G; lia). specialize (B _ _ G1 G2). lia.
Qed.
Print Assumptions C30_contiguous_total_partial.

(** ** C30: text round trip.  Missing from the full statement: the empty set, and displayed
    ranges of 10^9 integers and more (see the refutations). For every autostep and padding, and
    whatever the autostep of the reader; with the same autostep the text read back is written
    again in the same way. *)
Theorem C30_round_trip_partial : forall cc r autostep, digits_not_space cc -> ascending (rs_elems r) -> rs_elems r <> [] -> 0 <= rs_padding r ->
  (forall x, has r x -> 0 <= x <= e100) -> (forall s, In s (slices r) -> sl_stop s - sl_start s < e9) ->
  exists text r', rs_str r = Ok text /\ parse cc text autostep = Ok r' /\ rs_eq r' r = true /\ rs_elems r' = rs_elems r /\
    (rs_step r = rs_step (rs_empty autostep) -> rs_str r' = Ok text).
Proof.
  intros cc r autostep D A NE Hp P B. destruct (round_trip cc D r autostep A NE Hp) as [text [r' [E1 [E2 [E3 [E4 E5]]]]]].
  - apply Forall_forall. intros s Hs. destruct (slice_bounds r s A Hs) as [B1 [B2 B3]]. split; [assumption|]. split; [apply P; assumption|]. split; [apply P; assumption|apply B; assumption].
  - exists text, r'. split; [assumption|]. split; [assumption|]. split; [|split; [assumption|intros Q; apply E5; symmetry; exact Q]].
    apply eq_spec; [rewrite E3; assumption|assumption|]. unfold has. rewrite E3. intros x. reflexivity.
Qed.
Print Assumptions C30_round_trip_partial.

(** In particular, sets that span less than 10^9. *)
Theorem C30_round_trip_span_partial : forall cc r autostep, digits_not_space cc -> ascending (rs_elems r) -> rs_elems r <> [] -> 0 <= rs_padding r ->
  (forall x, has r x -> 0 <= x <= e100) -> (forall x y, has r x -> has r y -> y - x < e9 - 1) ->
  exists text r', rs_str r = Ok text /\ parse cc text autostep = Ok r' /\ rs_eq r' r = true /\ rs_elems r' = rs_elems r.
Proof.
  intros cc r autostep D A NE Hp P B. destruct (C30_round_trip_partial cc r autostep D A NE Hp P) as [text [r' [E1 [E2 [E3 [E4 _]]]]]].
  - intros s Hs. destruct (slice_bounds r s A Hs) as [B1 [B2 B3]]. specialize (B _ _ B1 B2). lia.
  - exists text, r'. auto.
Qed.
Print Assumptions C30_round_trip_span_partial.

(** The empty set is written as an empty text, which cannot be read. *)
Theorem C30_empty_refuted : exists r text, ascending (rs_elems r) /\ rs_str r = Ok text /\ forall autostep, parse ascii_cc text autostep = Raise RangeSetParseError.
Proof. exists (rs_empty None), []. split; [constructor|]. split; [reflexivity|]. intros autostep. reflexivity. Qed.
Print Assumptions C30_empty_refuted.
(** A set of three numbers, written "0-2000000000/1000000000" when autostep is 3, cannot be read back. *)
Theorem C30_large_refuted : exists r text, ascending (rs_elems r) /\ Forall (fun x => 0 <= x) (rs_elems r) /\ rs_elems r <> [] /\ rs_str r = Ok text /\
  parse ascii_cc text None = Raise AssertionError.
Proof.
  exists (rs_of_list [0; 1000000000; 2000000000] (Some 3)), (lit "0-2000000000/1000000000"). vm_compute. split; [repeat constructor|]. split; [repeat constructor; discriminate|]. repeat split. discriminate.
Qed.
Print Assumptions C30_large_refuted.

Example C30_example : digits_not_space ascii_cc /\
  let r := {| rs_elems := [1; 2; 3; 5; 8; 10; 12; 14; 99; 100]; rs_pad := Some 3; rs_step := Some 3 |} in
  ascending (rs_elems r) /\ rs_str r = Ok (lit "001-003,005,008-014/2,099-100") /\
  rs_str (set_autostep r None) = Ok (lit "001-003,005,008,010,012,014,099-100") /\
  parse ascii_cc (lit "001-003,005,008-014/2,099-100") (Some 4) = Ok r /\
  (exists rs, rs_contiguous r = Ok rs /\ map rs_elems rs = [[1; 2; 3]; [5]; [8]; [10]; [12]; [14]; [99; 100]]).
Proof.
  split.
  - intros c H. assert (Q : (c = 48 \/ c = 49 \/ c = 50 \/ c = 51 \/ c = 52 \/ c = 53 \/ c = 54 \/ c = 55 \/ c = 56 \/ c = 57)%N) by lia.
    repeat (destruct Q as [->|Q]; [reflexivity|]). subst c. reflexivity.
  - cbn zeta. split; [repeat constructor|]. split; [vm_compute; reflexivity|]. split; [vm_compute; reflexivity|]. split; [vm_compute; reflexivity|]. eexists. split; vm_compute; reflexivity.
Qed.

(** ** C31: with any autostep, the slices shown are consecutive pieces of the set, one for every
    slice, together exactly its elements. *)
Theorem C31_folding_exact : forall r, ascending (rs_elems r) -> divides (slices r) (rs_elems r).
Proof. intros r A. destruct (slices_spec r A) as [P F]. apply divides_expand; assumption. Qed.
Print Assumptions C31_folding_exact.
(** No slice with a step stands for fewer elements than autostep. *)
Theorem C31_threshold : forall r n s l, ascending (rs_elems r) -> rs_step r = rs_step (rs_empty (Some n)) -> In s (slices r) -> sl_step s <> 1 ->
  listing s l -> n <= Z.of_nat (length l).
Proof. intros r n s l A S Hs N L. cbn in S. pose proof (threshold r (n - 1) s l A S Hs N L). lia. Qed.
Print Assumptions C31_threshold.
(** Without autostep no slice has a step. *)
Theorem C31_no_autostep : forall r s, ascending (rs_elems r) -> rs_step r = rs_step (rs_empty None) -> In s (slices r) -> sl_step s = 1.
Proof.
  intros r s A S Hs. unfold slices in Hs. rewrite S in Hs. cbn in Hs. destruct (contiguous_spec r A) as [_ [R _]]. rewrite Forall_forall in R. apply R. assumption.
Qed.
Print Assumptions C31_no_autostep.
Example C31_example :
  let r := rs_of_list [4; 1; 2; 3; 6; 8; 20; 30; 40; 41; 42; 44] (Some 3) in ascending (rs_elems r) /\
  map (fun s => (sl_start s, sl_stop s, sl_step s)) (slices r) = [(1, 4, 1); (4, 9, 2); (20, 41, 10); (41, 43, 1); (44, 45, 1)].
Proof. cbn zeta. split; [vm_compute; repeat constructor|]. vm_compute. reflexivity. Qed.

(** ** C48: the operations of a RangeSet are those of sets.  Missing: union and symmetric
    difference of two sets, and split (see the refutations). *)
Theorem C48_operations_partial : forall a b x pad strict, ascending (rs_elems a) -> ascending (rs_elems b) ->
  is_set_of (rs_copy a) (has a) /\
  is_set_of (rs_intersection a b) (fun y => has a y /\ has b y) /\
  is_set_of (rs_difference a b) (fun y => has a y /\ ~ has b y) /\
  is_set_of (rs_update a b) (fun y => has a y \/ has b y) /\
  is_set_of (rs_ior a b) (fun y => has a y \/ has b y) /\
  is_set_of (rs_intersection_update a b) (fun y => has a y /\ has b y) /\
  is_set_of (rs_symmetric_difference_update a b) (fun y => has a y /\ ~ has b y \/ has b y /\ ~ has a y) /\
  (match rs_difference_update a b strict with
   | Ok r => is_set_of r (fun y => has a y /\ ~ has b y) /\ (strict = true -> forall y, has b y -> has a y)
   | Raise e => e = KeyError /\ strict = true /\ ~ forall y, has b y -> has a y
   end) /\
  is_set_of (rs_add a x pad) (fun y => y = x \/ has a y) /\
  is_set_of (rs_discard a x) (fun y => has a y /\ y <> x) /\
  (match rs_remove a x with
   | Ok r => has a x /\ is_set_of r (fun y => has a y /\ y <> x)
   | Raise e => e = KeyError /\ ~ has a x
   end).
Proof.
  intros a b x pad strict A B. unfold is_set_of, has.
  assert (C : rs_elems (rs_copy a) = rs_elems a) by (apply set_update_nil; assumption).
  assert (DI : ascending (filter (fun y => negb (set_mem y (rs_elems b))) (rs_elems a)) /\ forall y, In y (filter (fun y => negb (set_mem y (rs_elems b))) (rs_elems a)) <-> In y (rs_elems a) /\ ~ In y (rs_elems b)).
  { destruct (filter_spec (fun y => negb (set_mem y (rs_elems b))) _ A) as [F1 F2]. split; [assumption|]. intros y. rewrite F2, negb_mem. reflexivity. }
  assert (IN : ascending (filter (fun y => set_mem y (rs_elems b)) (rs_elems a)) /\ forall y, In y (filter (fun y => set_mem y (rs_elems b)) (rs_elems a)) <-> In y (rs_elems a) /\ In y (rs_elems b)).
  { destruct (filter_spec (fun y => set_mem y (rs_elems b)) _ A) as [F1 F2]. split; [assumption|]. intros y. rewrite F2, set_mem_In. reflexivity. }
  assert (DC : ascending (rs_elems (rs_discard a x)) /\ forall y, In y (rs_elems (rs_discard a x)) <-> In y (rs_elems a) /\ y <> x).
  { destruct (filter_spec (fun y => negb (y =? x)) _ A) as [F1 F2]. split; [assumption|]. intros y. cbn. rewrite F2, negb_true_iff, Z.eqb_neq. reflexivity. }
  split; [rewrite C; split; [assumption|reflexivity]|]. split; [unfold rs_intersection; rewrite C; exact IN|]. split; [unfold rs_difference; rewrite C; exact DI|].
  split; [apply set_update_spec; assumption|]. split; [apply set_update_spec; assumption|]. split; [exact IN|]. split; [|split; [|split; [|split; [exact DC|]]]].
  - cbn. destruct (set_update_spec (filter (fun y => negb (set_mem y (rs_elems a))) (rs_elems b)) _ (proj1 DI)) as [S1 S2]. split; [assumption|]. intros y. rewrite S2, (proj2 DI), filter_In, negb_mem. reflexivity.
  - unfold rs_difference_update, rs_contains_set. destruct strict; cbn [andb].
    + destruct (rs_issubset b a) eqn:E; cbn [negb].
      * split; [exact DI|]. intros _. apply subset_spec. assumption.
      * split; [reflexivity|]. split; [reflexivity|]. intros Q. apply (subset_spec b a) in Q. congruence.
    + split; [exact DI|discriminate].
  - apply set_add_spec. assumption.
  - unfold rs_remove. destruct (set_mem x (rs_elems a)) eqn:E.
    + apply set_mem_In in E. split; [assumption|exact DC].
    + split; [reflexivity|]. intros Q. apply set_mem_In in Q. congruence.
Qed.
Print Assumptions C48_operations_partial.

(** Comparisons. *)
Theorem C48_comparisons : forall a b x, ascending (rs_elems a) -> ascending (rs_elems b) ->
  (rs_eq a b = true <-> forall y, has a y <-> has b y) /\
  (rs_issubset a b = true <-> forall y, has a y -> has b y) /\
  (rs_issuperset a b = true <-> forall y, has b y -> has a y) /\
  (rs_lt a b = true <-> (forall y, has a y -> has b y) /\ exists y, has b y /\ ~ has a y) /\
  (rs_contains a x = true <-> has a x) /\
  (rs_contains_set a b = true <-> forall y, has b y -> has a y).
Proof.
  intros a b x A B. split; [apply eq_spec; assumption|]. split; [apply subset_spec|]. split; [apply subset_spec|]. split; [|split; [apply set_mem_In|apply subset_spec]].
  unfold rs_lt. rewrite andb_true_iff, Nat.ltb_lt, subset_spec. split.
  - intros [L S]. split; [assumption|]. destruct (forallb (fun y => set_mem y (rs_elems a)) (rs_elems b)) eqn:E.
    + exfalso. rewrite forallb_forall in E. pose proof (NoDup_incl_length (asc_NoDup _ B) (l' := rs_elems a)) as I.
      assert (incl (rs_elems b) (rs_elems a)) by (intros y Hy; apply set_mem_In; apply E; assumption). specialize (I H). lia.
    + assert (Q : exists y, In y (rs_elems b) /\ set_mem y (rs_elems a) = false).
      { clear L S. induction (rs_elems b) as [|y l IH]; [discriminate|]. cbn in E. destruct (set_mem y (rs_elems a)) eqn:M; [|exists y; split; [left; reflexivity|assumption]].
        inversion B; subst. destruct (IH H1 E) as [z [Z1 Z2]]. exists z. split; [right; assumption|assumption]. }
      destruct Q as [y [Q1 Q2]]. exists y. split; [assumption|]. intros Q. apply set_mem_In in Q. congruence.
  - intros [S [y [Y1 Y2]]]. split; [|assumption]. unfold has in *. pose proof (NoDup_incl_length (l := y :: rs_elems a) (l' := rs_elems b)) as I. cbn [length] in I. apply I.
    + constructor; [assumption|apply asc_NoDup; assumption].
    + intros z [<-|Hz]; [assumption|apply S; assumption].
Qed.
Print Assumptions C48_comparisons.

(** Elements by position. *)
Theorem C48_getitem : forall a i x, ascending (rs_elems a) ->
  (rs_getitem a i = Ok x <-> exists n, nth_error (rs_elems a) n = Some x /\ (i = Z.of_nat n \/ i = Z.of_nat n - Z.of_nat (length (rs_elems a)))).
Proof.
  intros a i x _. unfold rs_getitem. cbn zeta. set (n := length (rs_elems a)). destruct (i <? 0) eqn:I; [apply Z.ltb_lt in I|apply Z.ltb_ge in I].
  - destruct ((i + Z.of_nat n <? 0) || (Z.of_nat n <=? i + Z.of_nat n)) eqn:E.
    + split; [discriminate|]. intros [k [K1 K2]]. assert (k < n)%nat by (apply nth_error_Some; congruence). apply orb_true_iff in E. rewrite Z.ltb_lt, Z.leb_le in E. lia.
    + apply orb_false_iff in E. rewrite Z.ltb_ge, Z.leb_gt in E. split.
      * intros H. exists (Z.to_nat (i + Z.of_nat n)). split; [destruct (nth_error _ _); congruence|]. right. lia.
      * intros [k [K1 K2]]. assert (k < n)%nat by (apply nth_error_Some; congruence). replace (Z.to_nat (i + Z.of_nat n)) with k by lia. rewrite K1. reflexivity.
  - destruct ((i <? 0) || (Z.of_nat n <=? i)) eqn:E.
    + split; [discriminate|]. intros [k [K1 K2]]. assert (k < n)%nat by (apply nth_error_Some; congruence). apply orb_true_iff in E. rewrite Z.ltb_lt, Z.leb_le in E. lia.
    + apply orb_false_iff in E. rewrite Z.ltb_ge, Z.leb_gt in E. split.
      * intros H. exists (Z.to_nat i). split; [destruct (nth_error _ _); congruence|]. left. lia.
      * intros [k [K1 K2]]. assert (k < n)%nat by (apply nth_error_Some; congruence). replace (Z.to_nat i) with k by lia. rewrite K1. reflexivity.
Qed.
Print Assumptions C48_getitem.
(** An index outside the set is an IndexError, and nothing else is an error. *)
Theorem C48_getitem_error : forall a i e,
  rs_getitem a i = Raise e <-> e = IndexError /\ (i < - Z.of_nat (length (rs_elems a)) \/ Z.of_nat (length (rs_elems a)) <= i).
Proof.
  intros a i e. unfold rs_getitem. cbn zeta. set (n := length (rs_elems a)).
  set (j := if i <? 0 then i + Z.of_nat n else i).
  assert (J : (j < 0 \/ Z.of_nat n <= j) <-> (i < - Z.of_nat n \/ Z.of_nat n <= i)).
  { unfold j. destruct (i <? 0) eqn:I; [apply Z.ltb_lt in I|apply Z.ltb_ge in I]; lia. }
  rewrite <- J. destruct ((j <? 0) || (Z.of_nat n <=? j)) eqn:E.
  - apply orb_true_iff in E. rewrite Z.ltb_lt, Z.leb_le in E. split; [intros H; split; [congruence|exact E]|]. intros [-> _]. reflexivity.
  - apply orb_false_iff in E. rewrite Z.ltb_ge, Z.leb_gt in E.
    destruct (nth_error (rs_elems a) (Z.to_nat j)) eqn:N.
    + split; [discriminate|]. intros [_ H]. lia.
    + apply nth_error_None in N. unfold n in *. lia.
Qed.
Print Assumptions C48_getitem_error.

Theorem C48_union_refuted : forall a b, rs_union a b = Raise AttributeError /\ rs_symmetric_difference a b = Raise AttributeError.
Proof. intros a b. split; reflexivity. Qed.
Print Assumptions C48_union_refuted.
Theorem C48_split_refuted : forall a n, rs_elems a <> [] -> rs_split a n = Raise (if 0 <? n then TypeError else AssertionError).
Proof. intros a n H. unfold rs_split. destruct (0 <? n); cbn [negb]; [|reflexivity]. destruct (rs_elems a); [congruence|reflexivity]. Qed.
Print Assumptions C48_split_refuted.
Example C48_example : let a := rs_of_list [3; 1; 2; 5] None in let b := rs_of_list [5; 7; 1] None in
  ascending (rs_elems a) /\ ascending (rs_elems b) /\ rs_elems (rs_intersection a b) = [1; 5] /\ rs_elems (rs_difference a b) = [2; 3] /\
  rs_elems (rs_symmetric_difference_update a b) = [2; 3; 7] /\ rs_remove a 7 = Raise KeyError /\ rs_getitem a (-1) = Ok 5.
Proof. cbn zeta. split; [vm_compute; repeat constructor|]. split; [vm_compute; repeat constructor|]. vm_compute. repeat split. Qed.
