(** Property C101: nothing that a RangeSet's autostep would fold is shown unfolded. *)
From Verif Require Import Py TokenModel RangeSetModel RangeSpec RangeFoldSpec RangeProof RangeFoldProof Samples.
From Coq Require Import Sorting.Sorted ZArith List Lia.
Import ListNotations.
Open Scope list_scope.
Open Scope Z_scope.

Lemma listing_bounds : forall s l, neat s -> listing s l -> In (sl_start s) l /\ In (sl_stop s - 1) l /\ forall x, In x l -> sl_start s <= x <= sl_stop s - 1.
Proof.
  intros s l [[P1 P2] [n N]] [_ L]. split; [apply L; exists 0; lia|]. split; [apply L; exists (Z.of_nat n); nia|].
  intros x Hx. apply L in Hx as [j Hj]. nia.
Qed.
Lemma listing_ends : forall s l, neat s -> listing s l -> hd 0 l = sl_start s /\ last l 0 = sl_stop s - 1.
Proof.
  intros s l N L. destruct (listing_bounds s l N L) as [B1 [B2 B3]]. destruct L as [A _].
  assert (HF : forall (l : list Z) y, ascending l -> In y l -> hd 0 l <= y).
  { intros k y Ak Hy. destruct k as [|x k]; [contradiction|]. inversion Ak as [|? ? A1 A2]; subst. rewrite Forall_forall in A2. cbn. destruct Hy as [->|Hy]; [lia|]. specialize (A2 y Hy). lia. }
  assert (HL : forall (l : list Z) y, ascending l -> In y l -> y <= last l 0).
  { induction l0 as [|x k IH]; intros y Ak Hy; [contradiction|]. inversion Ak as [|? ? A1 A2]; subst. rewrite Forall_forall in A2. destruct k as [|z k].
    - destruct Hy as [->|[]]. cbn. lia.
    - change (last (x :: z :: k) 0) with (last (z :: k) 0). destruct Hy as [->|Hy]; [|apply IH; assumption].
      pose proof (A2 z (or_introl eq_refl)). pose proof (IH z A1 (or_introl eq_refl)). lia. }
  assert (HI : In (hd 0 l) l /\ In (last l 0) l).
  { destruct l as [|x l]; [contradiction|]. split; [left; reflexivity|]. destruct (exists_last (l := x :: l)) as [k [y E]]; [discriminate|]. rewrite E, last_last. apply in_or_app. right. left. reflexivity. }
  destruct HI as [I1 I2]. apply B3 in I1, I2. pose proof (HF l _ A B1). pose proof (HL l _ A B2). lia.
Qed.
Lemma scan_slices : forall r n, n <= e100 -> ascending (rs_elems r) -> rs_step r = Some (n - 1) -> forall b, n - 1 <= b -> 2 <= b -> scan b [] None (slices r).
Proof.
  intros r n Hn A S b B1 B2. unfold slices. rewrite S. replace (e100 <=? n - 1) with false by (symmetry; apply Z.leb_gt; lia). apply scan_folded; assumption.
Qed.

(** ** C101.  With autostep [n], 3 or more: of integers shown singly one after the other, fewer than
    [n] are equally spaced. *)
Theorem C101_singles : forall r n before ss after l, ascending (rs_elems r) -> rs_step r = rs_step (rs_empty (Some n)) -> 3 <= n <= e100 ->
  slices r = before ++ ss ++ after -> shown_singly ss l -> equally_spaced l -> Z.of_nat (length l) < n.
Proof.
  intros r n before ss after l A S Hn E Sh [d D]. cbn in S.
  assert (U : ss = map unit_slice l).
  { assert (IN : forall s, In s ss -> In s (slices r)) by (intros s Hs; rewrite E; apply in_or_app; right; apply in_or_app; left; assumption).
    destruct (slices_neat r A) as [NT _]. rewrite Forall_forall in NT. clear D E. induction Sh as [|s x ss l H Sh IH]; [reflexivity|]. cbn [map]. f_equal; [|apply IH; intros; apply IN; right; assumption].
    pose proof (IN s (or_introl eq_refl)) as Hs. destruct (listing_ends s [x] (NT s Hs) H) as [H1 H2]. cbn in H1, H2. destruct (Z.eq_dec (sl_step s) 1) as [S1|S1].
    - destruct s as [u v w]. cbn in *. unfold unit_slice. subst. f_equal. lia.
    - exfalso. pose proof (threshold r (n - 1) s [x] A S Hs S1 H) as T. cbn in T. lia. }
  destruct (Nat.le_gt_cases 2 (length l)) as [L|L]; [|lia].
  assert (AR : l = arith (nth 0 l 0) (length l) d).
  { clear - D. assert (G : forall i, (i < length l)%nat -> nth i l 0 = nth 0 l 0 + d * Z.of_nat i).
    { induction i as [|i IH]; intros Hi; [lia|]. specialize (D i Hi). rewrite IH in D by lia. nia. }
    apply (nth_ext _ _ 0 (nth 0 l 0 + d * Z.of_nat 0)); unfold arith; [rewrite map_length, seq_length; reflexivity|]. intros i Hi. rewrite G by assumption.
    rewrite (map_nth (fun j => nth 0 l 0 + d * Z.of_nat j)), seq_nth by assumption. reflexivity. }
  pose proof (scan_slices r n ltac:(lia) A S (n - 1) ltac:(lia) ltac:(lia)) as SC. rewrite E in SC. apply scan_app in SC as [u [f SC]].
  rewrite U, AR in SC. apply scan_singles in SC; [|assumption]. lia.
Qed.
Print Assumptions C101_singles.

(** No slice begins with the integer with which the slice with a step before it could go on, and no
    single integer stands before a slice with a step which could have begun with it; for every
    autostep. *)
Theorem C101_ends : forall r n before s s' after l l', ascending (rs_elems r) -> rs_step r = rs_step (rs_empty (Some n)) -> n <= e100 ->
  slices r = before ++ s :: s' :: after -> listing s l -> listing s' l' ->
  (sl_step s <> 1 -> hd 0 l' <> last l 0 + sl_step s) /\
  (sl_step s = 1 -> length l = 1%nat -> sl_step s' <> 1 -> hd 0 l' <> hd 0 l + sl_step s').
Proof.
  intros r n before s s' after l l' A S Hn E L L'. cbn in S. destruct (slices_neat r A) as [NT _]. rewrite Forall_forall in NT.
  destruct (listing_ends s l) as [E1 E2]; [apply NT; rewrite E; apply in_or_app; right; left; reflexivity|assumption|].
  destruct (listing_ends s' l') as [E3 E4]; [apply NT; rewrite E; apply in_or_app; right; right; left; reflexivity|assumption|].
  rewrite E1, E2, E3. pose proof (scan_slices r n ltac:(lia) A S (Z.max 2 (n - 1)) ltac:(lia) ltac:(lia)) as SC. rewrite E in SC. apply scan_app in SC as [u [f SC]].
  cbn [scan] in SC. destruct SC as [_ SC]. split.
  - intros N. apply Z.eqb_neq in N. rewrite N in SC. destruct SC as [_ [SC _]]. intros C. apply SC. f_equal. symmetry. exact C.
  - intros N1 N2 N3. rewrite N1, Z.eqb_refl in SC. destruct l as [|x [|y l]]; try discriminate. cbn in E1, E2.
    replace (sl_start s + 1 =? sl_stop s) with true in SC by (symmetry; apply Z.eqb_eq; lia). destruct SC as [_ [_ SC]].
    apply Z.eqb_neq in N3. rewrite N3 in SC. destruct SC as [SC _]. cbn [hdne] in SC. lia.
Qed.
Print Assumptions C101_ends.

(** With autostep 2 two integers, however far apart, would make a slice: yet 1 and 5 are shown
    singly. *)
Theorem C101_two : exists r before ss after l, ascending (rs_elems r) /\ rs_step r = rs_step (rs_empty (Some 2)) /\
  slices r = before ++ ss ++ after /\ shown_singly ss l /\ equally_spaced l /\ ~ Z.of_nat (length l) < 2.
Proof.
  exists (rs_of_list [1; 5; 6; 8] (Some 2)), [], [unit_slice 1; unit_slice 5], [{| sl_start := 6; sl_stop := 9; sl_step := 2 |}], [1; 5].
  split; [vm_compute; repeat constructor|]. split; [reflexivity|]. split; [vm_compute; reflexivity|]. split; [|split].
  - assert (G : forall x, listing (unit_slice x) [x]).
    { intros x. split; [repeat constructor|]. intros y. unfold denotes. cbn. split; [intros [<-|[]]; exists 0; lia|]. intros [k Hk]. left. lia. }
    constructor; [apply G|]. constructor; [apply G|constructor].
  - exists 4. intros [|i] Hi; [reflexivity|]. cbn in Hi. lia.
  - cbn. lia.
Qed.
Print Assumptions C101_two.

Example C101_example :
  let r := rs_of_list [1; 3; 6; 7; 9; 11; 20; 22; 25; 28; 31] (Some 4) in ascending (rs_elems r) /\
  map (fun s => (sl_start s, sl_stop s, sl_step s)) (slices r) = [(1, 2, 1); (3, 4, 1); (6, 8, 1); (9, 10, 1); (11, 12, 1); (20, 21, 1); (22, 32, 3)].
Proof. cbn zeta. split; [vm_compute; repeat constructor|]. vm_compute. reflexivity. Qed.
