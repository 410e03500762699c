(** Properties C30 and C70: which RangeSets can be read back from their text, and what the others raise. *)
From Verif Require Import Py Lib TokenModel RangeSetModel RangeMoreModel RangeSpec RangeMoreSpec RangeProof RangeMoreProof RangeTextProof DrawProof Props_rangeset Props_rangemore Samples.
From Coq Require Import Sorting.Sorted.
Open Scope list_scope.
Open Scope Z_scope.

(** ** C30: what reading the text of a set raises. *)
(** Whatever the padding and the autostep, the text of the empty set is refused... *)
Theorem C30_empty : forall cc r autostep, rs_elems r = [] ->
  exists text, rs_str r = Ok text /\ parse cc text autostep = Raise RangeSetParseError.
Proof.
  intros cc r autostep H. exists []. split; [|reflexivity]. rewrite rs_str_ok by (rewrite H; constructor).
  assert (S : slices r = []); [|rewrite S; reflexivity]. destruct (slices_neat r) as [P F]; [rewrite H; constructor|]. rewrite H in F.
  destruct (slices r) as [|s ss]; [reflexivity|]. exfalso. inversion P as [|? ? [[P1 P2] _] _]; subst. cbn [flat_map] in F. apply app_eq_nil in F as [F _].
  assert (I : In (sl_start s) (expand s)) by (apply (proj2 (expand_listing s P2)); exists 0; lia). rewrite F in I. destruct I.
Qed.
Print Assumptions C30_empty.
(** ...and so is the text of any set with a negative number. *)
Theorem C30_negative : forall cc r autostep x, ascending (rs_elems r) -> has r x -> x < 0 ->
  exists text, rs_str r = Ok text /\ parse cc text autostep = Raise RangeSetParseError.
Proof. exact parse_negative. Qed.
Print Assumptions C30_negative.
(** A displayed range of 10^9 numbers or more is refused by an assertion. *)
Theorem C30_large : forall cc r autostep s, digits_not_space cc -> ascending (rs_elems r) -> 0 <= rs_padding r -> (forall x, has r x -> 0 <= x <= e100) ->
  In s (slices r) -> e9 <= sl_stop s - sl_start s ->
  exists text, rs_str r = Ok text /\ parse cc text autostep = Raise AssertionError.
Proof.
  intros cc r autostep s D A Hp B Hs L. destruct (slice_bounds r s A Hs) as [B1 _].
  destruct (parse_text cc r autostep A) as [text [E1 E2]]; [intros Q; rewrite Q in B1; destruct B1|]. exists text. split; [exact E1|]. rewrite E2.
  apply (parse_too_large cc D); [assumption|apply slices_spec; assumption| | |].
  - apply Forall_forall. intros t Ht. destruct (slice_bounds r t A Ht) as [T1 _]. apply B. exact T1.
  - apply Exists_exists. exists s. split; [assumption|]. unfold readable. lia.
  - apply Forall_forall. intros t Ht _. destruct (slice_bounds r t A Ht) as [_ [T2 _]]. apply B in T2. replace (e100 <? sl_stop t - 1) with false by (symmetry; apply Z.ltb_ge; lia). reflexivity.
Qed.
Print Assumptions C30_large.
(** A number above 1E100 is refused. *)
Theorem C30_huge : forall cc r autostep x, digits_not_space cc -> ascending (rs_elems r) -> 0 <= rs_padding r ->
  (forall s, In s (slices r) -> sl_stop s - sl_start s < e9) -> has r x -> e100 < x ->
  exists text, rs_str r = Ok text /\ parse cc text autostep = Raise RangeSetParseError.
Proof.
  intros cc r autostep x D A Hp L Hx Bx.
  assert (N : (exists y, has r y /\ y < 0) \/ Forall (fun y => 0 <= y) (rs_elems r)).
  { unfold has. generalize (rs_elems r). intros l. induction l as [|y l [[z [I Z]]|IH]]; [right; constructor|left; exists z; split; [right|]; assumption|].
    destruct (Z_lt_dec y 0); [left; exists y; split; [left; reflexivity|assumption]|right; constructor; [lia|assumption]]. }
  destruct N as [[y [Hy Ny]]|N]; [exact (parse_negative cc r autostep y A Hy Ny)|]. rewrite Forall_forall in N.
  destruct (parse_text cc r autostep A) as [text [E1 E2]]; [intros Q; unfold has in Hx; rewrite Q in Hx; destruct Hx|]. exists text. split; [exact E1|]. rewrite E2.
  apply (parse_too_large cc D); [assumption|apply slices_spec; assumption| | |].
  - apply Forall_forall. intros t Ht. destruct (slice_bounds r t A Ht) as [T1 _]. apply N. exact T1.
  - destruct (slices_spec r A) as [P F]. unfold has in Hx. rewrite <- F in Hx. apply in_flat_map in Hx as [s [Hs Hx]]. rewrite Forall_forall in P. destruct (P s Hs) as [P1 P2].
    apply (proj2 (expand_listing s P2)) in Hx. destruct Hx as [j Hj]. apply Exists_exists. exists s. split; [assumption|]. unfold readable. lia.
  - apply Forall_forall. intros t Ht NR. destruct (e100 <? sl_stop t - 1) eqn:E; [reflexivity|]. exfalso. apply NR. apply Z.ltb_ge in E. destruct (slice_bounds r t A Ht) as [T1 [_ T3]]. specialize (L t Ht).
    split; [assumption|]. split; [apply N; exact T1|]. split; assumption.
Qed.
Print Assumptions C30_huge.

(** ** C30: exactly which sets come back. *)
Theorem C30_reads_back_iff : forall cc r autostep, digits_not_space cc -> ascending (rs_elems r) -> 0 <= rs_padding r ->
  exists text, rs_str r = Ok text /\ ((exists r', parse cc text autostep = Ok r') <-> can_be_read r) /\ (forall r', parse cc text autostep = Ok r' -> rs_elems r' = rs_elems r).
Proof.
  intros cc r autostep D A Hp.
  assert (K : forall e, (exists text, rs_str r = Ok text /\ parse cc text autostep = Raise e) -> ~ can_be_read r ->
    exists text, rs_str r = Ok text /\ ((exists r', parse cc text autostep = Ok r') <-> can_be_read r) /\ (forall r', parse cc text autostep = Ok r' -> rs_elems r' = rs_elems r)).
  { intros e [text [E1 E2]] NR. exists text. rewrite E2. split; [assumption|]. split; [split; [intros [? ?]; discriminate|contradiction]|discriminate]. }
  assert (ED : rs_elems r = [] \/ rs_elems r <> []) by (destruct (rs_elems r); [left; reflexivity|right; discriminate]). destruct ED as [ED|NE].
  { apply (K _ (C30_empty cc r autostep ED)). intros [Q _]. contradiction. }
  assert (N : (exists y, has r y /\ y < 0) \/ (exists y, has r y /\ e100 < y) \/ (forall y, has r y -> 0 <= y <= e100)).
  { unfold has. generalize (rs_elems r). intros l. induction l as [|y l IH]; [right; right; intros ? []|]. destruct (Z_lt_dec y 0); [left; exists y; split; [left; reflexivity|assumption]|].
    destruct IH as [[z [I Z]]|[[z [I Z]]|IH]]; [left; exists z; split; [right|]; assumption|right; left; exists z; split; [right|]; assumption|].
    destruct (Z_lt_dec e100 y); [right; left; exists y; split; [left; reflexivity|assumption]|]. right. right. intros z [<-|Hz]; [lia|apply IH; assumption]. }
  destruct N as [[y [Hy Y]]|N].
  { apply (K _ (C30_negative cc r autostep y A Hy Y)). intros [_ [Q _]]. specialize (Q y Hy). lia. }
  assert (L : (exists s, In s (slices r) /\ e9 <= sl_stop s - sl_start s) \/ (forall s, In s (slices r) -> sl_stop s - sl_start s < e9)).
  { generalize (slices r). intros l. induction l as [|s l [[z [I Z]]|IH]]; [right; intros ? []|left; exists z; split; [right|]; assumption|].
    destruct (Z_le_dec e9 (sl_stop s - sl_start s)); [left; exists s; split; [left; reflexivity|assumption]|right; intros z [<-|Hz]; [lia|apply IH; assumption]]. }
  destruct L as [[s [Hs L]]|L].
  - destruct N as [[y [Hy Y]]|N].
    + assert (X : exists text e, rs_str r = Ok text /\ parse cc text autostep = Raise e).
      { destruct (parse_text cc r autostep A NE) as [text [E1 E2]]. exists text.
        assert (NN : (exists y, has r y /\ y < 0) \/ Forall (fun y => 0 <= y) (rs_elems r)).
        { unfold has. generalize (rs_elems r). intros l. induction l as [|z l [[w [I W]]|IH]]; [right; constructor|left; exists w; split; [right|]; assumption|].
          destruct (Z_lt_dec z 0); [left; exists z; split; [left; reflexivity|assumption]|right; constructor; [lia|assumption]]. }
        destruct NN as [[z [Hz Z]]|NN].
        - destruct (C30_negative cc r autostep z A Hz Z) as [text' [E3 E4]]. rewrite E1 in E3. apply ok_inj in E3. subst text'. exists RangeSetParseError. split; assumption.
        - rewrite Forall_forall in NN. destruct (parse_unreadable cc D (rs_padding r) (slices r) (rs_empty autostep) Hp) as [e E].
          + apply slices_spec. assumption.
          + apply Forall_forall. intros t Ht. destruct (slice_bounds r t A Ht) as [T1 _]. apply NN. exact T1.
          + apply Exists_exists. exists s. split; [assumption|]. unfold readable. lia.
          + exists e. split; [assumption|]. rewrite E2. exact E. }
      destruct X as [text [e [E1 E2]]]. apply (K e); [exists text; auto|]. intros [_ [Q _]]. specialize (Q y Hy). lia.
    + apply (K _ (C30_large cc r autostep s D A Hp N Hs L)). intros [_ [_ Q]]. specialize (Q s Hs). lia.
  - destruct N as [[y [Hy Y]]|N].
    + apply (K _ (C30_huge cc r autostep y D A Hp L Hy Y)). intros [_ [Q _]]. specialize (Q y Hy). lia.
    + destruct (C30_round_trip_partial cc r autostep D A NE Hp N L) as [text [r' [E1 [E2 [E3 [E4 _]]]]]]. exists text. split; [assumption|]. rewrite E2. split.
      * split; [intros _; split; [assumption|split; assumption]|intros _; exists r'; reflexivity].
      * intros r2 Q. injection Q as <-. assumption.
Qed.
Print Assumptions C30_reads_back_iff.

(** ** C70: exactly which sets come back from a pickle; the others cannot be loaded at all. *)
Theorem C70_pickle_iff : forall cc r, digits_not_space cc -> ascending (rs_elems r) -> 0 <= rs_padding r ->
  (can_be_read r -> rs_unpickle cc r = Ok r) /\ (~ can_be_read r -> exists e, rs_unpickle cc r = Raise e).
Proof.
  intros cc r D A Hp. split.
  - intros [NE [B L]]. apply C70_pickle_partial; assumption.
  - intros NR. destruct (C30_reads_back_iff cc r None D A Hp) as [text [E1 [E2 _]]]. unfold rs_unpickle. rewrite E1. cbn [bind]. destruct (parse cc text None) as [r'|e]; [|exists e; reflexivity].
    exfalso. apply NR, E2. exists r'. reflexivity.
Qed.
Print Assumptions C70_pickle_iff.
(** What is raised. *)
Theorem C70_pickle_raises : forall cc r, digits_not_space cc -> ascending (rs_elems r) -> 0 <= rs_padding r ->
  (rs_elems r = [] -> rs_unpickle cc r = Raise RangeSetParseError) /\
  (forall x, has r x -> x < 0 -> rs_unpickle cc r = Raise RangeSetParseError) /\
  (forall s, (forall x, has r x -> 0 <= x <= e100) -> In s (slices r) -> e9 <= sl_stop s - sl_start s -> rs_unpickle cc r = Raise AssertionError) /\
  (forall x, (forall s, In s (slices r) -> sl_stop s - sl_start s < e9) -> has r x -> e100 < x -> rs_unpickle cc r = Raise RangeSetParseError).
Proof.
  intros cc r D A Hp. assert (K : forall e, (exists text, rs_str r = Ok text /\ parse cc text None = Raise e) -> rs_unpickle cc r = Raise e).
  { intros e [text [E1 E2]]. unfold rs_unpickle. rewrite E1. cbn [bind]. rewrite E2. reflexivity. }
  repeat split; intros; apply K; [apply C30_empty|eapply C30_negative|eapply C30_large|eapply C30_huge]; eassumption.
Qed.
Print Assumptions C70_pickle_raises.

Example C30_reads_back_example : digits_not_space ascii_cc /\
  can_be_read {| rs_elems := [1; 2; 3; 5; 8; 10; 12; 14]; rs_pad := Some 3; rs_step := Some 3 |} /\
  ~ can_be_read (rs_empty None) /\ ~ can_be_read (rs_of_list [-1; 4] None) /\ ~ can_be_read (rs_of_list [0; 1000000000; 2000000000] (Some 3)) /\
  can_be_read (rs_of_list [0; 1000000000; 2000000000] None) /\
  rs_unpickle ascii_cc (rs_of_list [3; e100 + 1] None) = Raise RangeSetParseError.
Proof.
  split; [apply C30_example|].
  split. { split; [discriminate|]. split; [intros x Hx; cbn in Hx; unfold e100; lia|]. intros s Hs. vm_compute in Hs. repeat (destruct Hs as [<-|Hs]; [reflexivity|]). destruct Hs. }
  split; [intros [Q _]; apply Q; reflexivity|]. split; [intros [_ [Q _]]; specialize (Q (-1)); cbn in Q; unfold has in Q; cbn in Q; lia|].
  split. { intros [_ [_ Q]]. specialize (Q {| sl_start := 0; sl_stop := 2000000001; sl_step := 1000000000 |}). assert (I : 2000000001 - 0 < e9) by (apply Q; vm_compute; left; reflexivity). discriminate I. }
  split. { split; [discriminate|]. split; [intros x Hx; unfold has in Hx; cbn in Hx; unfold e100; lia|]. intros s Hs. vm_compute in Hs. repeat (destruct Hs as [<-|Hs]; [reflexivity|]). destruct Hs. }
  vm_compute. reflexivity.
Qed.
