(** RangeSet: contiguous ranges, folding by step, text form (C30, C31, C48). *)
From Verif Require Import Py TokenModel RangeSetModel RangeSpec Lib OutputProof.
From Coq Require Import Sorting.Sorted.
From Coq Require DecimalN DecimalFacts DecimalPos.
Open Scope list_scope.
Open Scope Z_scope.

(** ** Arithmetic progressions *)
Definition arith (a : Z) (n : nat) (m : Z) : list Z := map (fun j => a + m * Z.of_nat j) (seq 0 n).

Lemma arith_In : forall a n m x, In x (arith a n m) <-> exists j, (j < n)%nat /\ x = a + m * Z.of_nat j.
Proof.
  intros. unfold arith. rewrite in_map_iff. split.
  - intros [j [E H]]. apply in_seq in H. exists j. split; [lia|auto].
  - intros [j [H E]]. exists j. split; [auto|]. apply in_seq. lia.
Qed.

Lemma arith_S : forall a n m, arith a (S n) m = a :: arith (a + m) n m.
Proof.
  intros. unfold arith. cbn [seq map]. f_equal; [lia|]. rewrite <- seq_shift, map_map. apply map_ext. intros j. lia.
Qed.
Lemma arith_app : forall a n1 n2 m, arith a (n1 + n2) m = arith a n1 m ++ arith (a + m * Z.of_nat n1) n2 m.
Proof.
  intros a n1. revert a. induction n1 as [|n1 IH]; intros a n2 m.
  - cbn [Nat.add]. replace (arith a 0 m) with (@nil Z) by reflexivity. cbn [app]. f_equal. lia.
  - cbn [Nat.add]. rewrite !arith_S. cbn [app]. f_equal. rewrite IH. f_equal. f_equal. lia.
Qed.

Lemma arith_asc : forall n a m, 0 < m -> ascending (arith a n m).
Proof.
  induction n as [|n IH]; intros a m Hm; [constructor|]. rewrite arith_S. constructor; [apply IH; assumption|].
  apply Forall_forall. intros x Hx. apply arith_In in Hx as [j [_ ->]]. nia.
Qed.

Lemma py_range_arith : forall a b m n, 0 < m -> m * (Z.of_nat n - 1) < b - a -> b - a <= m * Z.of_nat n -> py_range a b m = arith a n m.
Proof.
  intros a b m n Hm H1 H2. unfold py_range, arith. f_equal. f_equal.
  assert (E : (b - a + m - 1) / m = Z.of_nat n); [|rewrite E; apply Nat2Z.id].
  symmetry. apply Z.div_unique with (b - a + m - 1 - m * Z.of_nat n); lia.
Qed.

(** Contiguous integers. *)
Definition zseq (a b : Z) : list Z := arith a (Z.to_nat (b - a)) 1.
Lemma zseq_range : forall a b, py_range a b 1 = zseq a b.
Proof.
  intros. unfold zseq. destruct (Z.le_gt_cases b a) as [L|L].
  - unfold py_range. rewrite Z.div_1_r. replace (Z.to_nat (b - a + 1 - 1)) with 0%nat by lia. replace (Z.to_nat (b - a)) with 0%nat by lia. reflexivity.
  - apply py_range_arith; lia.
Qed.
Lemma zseq_app : forall a b c, a <= b -> b <= c -> zseq a c = zseq a b ++ zseq b c.
Proof.
  intros. unfold zseq. replace (Z.to_nat (c - a)) with (Z.to_nat (b - a) + Z.to_nat (c - b))%nat by lia. rewrite arith_app. f_equal. f_equal. lia.
Qed.
Lemma zseq_one : forall a, zseq a (a + 1) = [a].
Proof. intros. unfold zseq. replace (Z.to_nat (a + 1 - a)) with 1%nat by lia. cbn. f_equal. lia. Qed.

(** ** Slices *)
Definition expand (s : pslice) : list Z := py_range (sl_start s) (sl_stop s) (sl_step s).

Lemma range_count : forall a b m, 0 < m -> exists n, py_range a b m = arith a n m /\ m * (Z.of_nat n - 1) < Z.max 0 (b - a) /\ b - a <= m * Z.of_nat n.
Proof.
  intros a b m Hm. exists (Z.to_nat ((b - a + m - 1) / m)). split; [reflexivity|].
  pose proof (Z.div_mod (b - a + m - 1) m ltac:(lia)) as E. pose proof (Z.mod_pos_bound (b - a + m - 1) m Hm) as B.
  destruct (Z.le_gt_cases 0 ((b - a + m - 1) / m)) as [L|L].
  - rewrite Z2Nat.id by assumption. split; [|nia]. nia.
  - replace (Z.of_nat (Z.to_nat ((b - a + m - 1) / m))) with 0 by lia. split; nia.
Qed.

Lemma expand_listing : forall s, 0 < sl_step s -> listing s (expand s).
Proof.
  intros [a b m] Hm. cbn [sl_step] in Hm. unfold listing, expand, denotes. cbn [sl_start sl_stop sl_step].
  destruct (range_count a b m Hm) as [n [-> [H1 H2]]]. split; [apply arith_asc; assumption|]. intros x. rewrite arith_In. split.
  - intros [j [Hj ->]]. exists (Z.of_nat j). split; [lia|]. split; [lia|]. destruct (Z.le_gt_cases (b - a) 0); nia.
  - intros [k [Hk [-> Hx]]]. exists (Z.to_nat k). rewrite Z2Nat.id by assumption. split; [|lia]. nia.
Qed.

Lemma expand_nonempty : forall s, 0 < sl_step s -> sl_start s < sl_stop s -> expand s <> [].
Proof.
  intros s Hm H E. pose proof (proj2 (expand_listing s Hm) (sl_start s)) as Q. rewrite E in Q. apply Q. exists 0. lia.
Qed.

Definition proper (s : pslice) : Prop := sl_start s < sl_stop s /\ 0 < sl_step s.

Lemma divides_expand : forall ss l, Forall proper ss -> flat_map expand ss = l -> divides ss l.
Proof.
  intros ss l P E. exists (map expand ss). split; [|split].
  - clear E. induction P as [|s ss [H1 H2] P IH]; cbn [map]; constructor; [apply expand_listing|]; assumption.
  - rewrite <- flat_map_concat_map. exact E.
  - apply Forall_forall. intros p Hp. apply in_map_iff in Hp as [s [<- Hs]]. rewrite Forall_forall in P. destruct (P s Hs). apply expand_nonempty; assumption.
Qed.

(** ** Contiguous ranges *)
Definition runs (ss : list pslice) : Prop := Forall (fun s => sl_start s < sl_stop s /\ sl_step s = 1) ss /\ StronglySorted apart ss.

Lemma contiguous_ok : forall l k j, ascending l -> k <= j -> (forall x, In x l -> j < x) ->
  let ss := contiguous_loop l (Some (k, j)) in
  flat_map expand ss = zseq k (j + 1) ++ l /\ runs ss /\ (exists s ss', ss = s :: ss' /\ sl_start s = k).
Proof.
  induction l as [|i l IH]; intros k j A L B; cbn [contiguous_loop].
  - cbn [flat_map]. unfold expand. cbn [sl_start sl_stop sl_step]. rewrite zseq_range. split; [reflexivity|]. split; [|eexists; eexists; split; reflexivity].
    split; repeat constructor. cbn. lia.
  - inversion A as [|? ? A1 A2]; subst. rewrite Forall_forall in A2. assert (J : j < i) by (apply B; left; reflexivity).
    destruct (1 <? i - j) eqn:E.
    + apply Z.ltb_lt in E. destruct (IH i i A1 (Z.le_refl i) A2) as [F [[R1 R2] [s [ss' [S1 S2]]]]]. cbn zeta in *. cbn [flat_map]. rewrite F.
      unfold expand at 1. cbn [sl_start sl_stop sl_step]. rewrite zseq_range, zseq_one. split; [reflexivity|]. split; [|eexists; eexists; split; reflexivity].
      split; [constructor; [cbn; lia|assumption]|]. constructor; [assumption|]. rewrite S1 in *. inversion R2 as [|? ? R3 R4]; subst. constructor.
      * unfold apart. cbn [sl_stop]. lia.
      * apply Forall_impl with (apart s); [|assumption]. intros s' Hs'. unfold apart in *. cbn [sl_stop]. inversion R1 as [|? ? [Q1 _] _]; subst. lia.
    + apply Z.ltb_ge in E. assert (i = j + 1) by lia. subst i. destruct (IH k (j + 1) A1 ltac:(lia) A2) as [F R]. cbn zeta in *. split; [|exact R].
      rewrite F, (zseq_app k (j + 1) (j + 1 + 1)) by lia. rewrite zseq_one, <- app_assoc. reflexivity.
Qed.

Lemma contiguous_spec : forall r, ascending (rs_elems r) -> flat_map expand (contiguous_slices r) = rs_elems r /\ runs (contiguous_slices r).
Proof.
  intros r A. unfold contiguous_slices. destruct (rs_elems r) as [|i l] eqn:E; [split; [reflexivity|split; constructor]|].
  cbn [contiguous_loop]. replace (1 <? i - i) with false by (symmetry; apply Z.ltb_ge; lia). inversion A as [|? ? A1 A2]; subst. rewrite Forall_forall in A2.
  destruct (contiguous_ok l i i A1 (Z.le_refl i) A2) as [F [R _]]. cbn zeta in *. rewrite F, zseq_one. split; [reflexivity|assumption].
Qed.

(** ** Folding by step *)

(** A slice that ends with an element. *)
Definition neat (s : pslice) : Prop := proper s /\ exists n, sl_stop s = sl_start s + sl_step s * Z.of_nat n + 1.
Lemma neat_run : forall a b, a < b -> neat {| sl_start := a; sl_stop := b; sl_step := 1 |}.
Proof. intros a b H. split; [unfold proper; cbn; lia|]. exists (Z.to_nat (b - a - 1)). cbn [sl_start sl_stop sl_step]. lia. Qed.
Lemma neat_prog : forall a b m n, 0 < m -> b = a + m * Z.of_nat n + 1 -> neat {| sl_start := a; sl_stop := b; sl_step := m |}.
Proof. intros a b m n H ->. split; [unfold proper; cbn; nia|]. exists n. reflexivity. Qed.


(** The integers that have been read but not yet yielded. *)
Definition pending (st : fstate) : list Z :=
  match f_prng st with
  | Some (a, b) => zseq a b ++ (if f_m st =? 0 then [] else arith (f_istart st + f_m st) (Z.to_nat ((f_k st - f_istart st) / f_m st)) (f_m st))
  | None => if f_m st =? 0 then [f_istart st] else arith (f_istart st) (S (Z.to_nat ((f_k st - f_istart st) / f_m st))) (f_m st)
  end.

(** [last st]: the last integer read. *)
Definition fold_inv (st : fstate) : Prop :=
  (match f_prng st with Some (a, b) => a + 1 < b /\ f_istart st = b - 1 | None => True end) /\
  ((f_m st = 0 /\ f_k st = f_istart st) \/
   (0 < f_m st /\ f_i st = f_k st /\ exists n, f_k st = f_istart st + f_m st * Z.of_nat (S n))).

Lemma units : forall l, flat_map expand (map unit_slice l) = l.
Proof. induction l as [|x l IH]; [reflexivity|]. cbn [map flat_map]. rewrite IH. unfold expand, unit_slice. cbn [sl_start sl_stop sl_step]. rewrite zseq_range, zseq_one. reflexivity. Qed.
Lemma units_proper : forall l, Forall neat (map unit_slice l).
Proof. induction l; cbn [map]; constructor; [apply neat_run; lia|assumption]. Qed.

Lemma div_steps : forall x m n, 0 < m -> x = m * Z.of_nat n -> Z.to_nat (x / m) = n.
Proof. intros x m n Hm ->. rewrite Z.mul_comm, Z.div_mul by lia. apply Nat2Z.id. Qed.

Lemma expand_prog : forall a m n, 0 < m -> expand {| sl_start := a; sl_stop := a + m * Z.of_nat n + 1; sl_step := m |} = arith a (S n) m.
Proof. intros. unfold expand. cbn [sl_start sl_stop sl_step]. apply py_range_arith; nia. Qed.

Lemma arith_snoc : forall a n m, arith a (S n) m = arith a n m ++ [a + m * Z.of_nat n].
Proof. intros. replace (S n) with (n + 1)%nat by lia. rewrite arith_app. cbn. f_equal. f_equal. lia. Qed.

Lemma flush_ok : forall st prng istart m n i k, 0 < m -> k = istart + m * Z.of_nat (S n) ->
  match prng with Some (a, b) => a + 1 < b /\ istart = b - 1 | None => True end ->
  forall out is', flush_prng st m prng istart = (out, is') ->
  Forall neat out /\ exists n', k = is' + m * Z.of_nat n' /\ (st = true -> n' = S n /\ is' = istart) /\
    flat_map expand out ++ arith is' (S n') m = pending {| f_prng := prng; f_istart := istart; f_m := m; f_i := i; f_k := k |}.
Proof.
  intros st prng istart m n i k Hm Hk Hp out is' H. unfold pending. cbn [f_prng f_istart f_m f_k].
  replace (m =? 0) with false by (symmetry; apply Z.eqb_neq; lia). rewrite (div_steps (k - istart) m (S n)) by lia.
  destruct prng as [[a b]|]; cbn [flush_prng] in H.
  - destruct Hp as [H1 H2]. destruct st; injection H as <- <-.
    + split; [constructor; [apply neat_run; cbn; lia|constructor]|]. exists (S n). split; [assumption|]. split; [auto|]. cbn [flat_map prng_slice fst snd]. unfold expand. cbn [sl_start sl_stop sl_step prng_slice fst snd].
      rewrite zseq_range, app_nil_r, arith_S. rewrite (zseq_app a (b - 1) b) by lia. rewrite <- app_assoc. f_equal. rewrite H2.
      assert (Z1 : zseq (b - 1) b = [b - 1]) by (rewrite <- (zseq_one (b - 1)); f_equal; lia). rewrite Z1. reflexivity.
    + split; [constructor; [apply neat_run; cbn; lia|constructor]|]. exists n. split; [nia|]. split; [discriminate|]. cbn [flat_map]. unfold expand. cbn [sl_start sl_stop sl_step prng_slice fst snd].
      rewrite zseq_range, app_nil_r. reflexivity.
  - injection H as <- <-. split; [constructor|]. exists (S n). split; [assumption|]. split; [auto|]. reflexivity.
Qed.

Lemma pending_idle : forall p is' i k, match p with Some (a, b) => is' = b - 1 | None => True end ->
  pending {| f_prng := p; f_istart := is'; f_m := 0; f_i := i; f_k := k |} = match p with Some (a, b) => zseq a b | None => [is'] end.
Proof. intros [[a b]|] is' i k H; unfold pending; cbn [f_prng f_istart f_m f_k]; [rewrite app_nil_r|]; reflexivity. Qed.

Lemma idle_slice : forall p is' i k, fold_inv {| f_prng := p; f_istart := is'; f_m := 0; f_i := i; f_k := k |} ->
  let s := match p with Some q => prng_slice q | None => unit_slice is' end in
  neat s /\ expand s = pending {| f_prng := p; f_istart := is'; f_m := 0; f_i := i; f_k := k |}.
Proof.
  intros p is' i k [H1 H2] s. cbn [f_prng f_istart] in H1. unfold s. destruct p as [[a b]|].
  - destruct H1 as [H1 H3]. rewrite pending_idle by assumption. split; [apply neat_run; cbn; lia|]. unfold expand. cbn [prng_slice fst snd sl_start sl_stop sl_step]. apply zseq_range.
  - rewrite pending_idle by exact I. split; [apply neat_run; cbn; lia|]. unfold expand. cbn [unit_slice sl_start sl_stop sl_step]. rewrite zseq_range. apply zseq_one.
Qed.

Theorem step_ok : forall a st sli, fold_inv st -> sl_start sli < sl_stop sli -> f_k st < sl_start sli ->
  forall out st', folded_step a (Some st) sli = (out, st') ->
  Forall neat out /\ fold_inv st' /\ f_k st' = sl_stop sli - 1 /\
  flat_map expand out ++ pending st' = pending st ++ zseq (sl_start sli) (sl_stop sli).
Proof.
  intros a [prng istart m i k] [start stop sp] FI Hs Hk out st' H. cbn [sl_start sl_stop f_k] in *. cbn [folded_step sl_start sl_stop] in H.
  pose proof FI as [FP FM]. cbn [f_prng f_istart f_m f_i f_k] in FP, FM.
  destruct (m =? 0) eqn:M0.
  - (* no step yet *)
    apply Z.eqb_eq in M0. subst m. destruct FM as [[_ FM]|[FM _]]; [|lia].
    destruct (start + 1 =? stop) eqn:U; cbn [negb] in H; injection H as <- <-.
    + apply Z.eqb_eq in U. subst stop. split; [constructor|]. split; [|split].
      * split; cbn [f_prng f_istart f_m f_i f_k]; [assumption|]. right. split; [lia|]. split; [reflexivity|]. exists 0%nat. lia.
      * cbn [f_k]. lia.
      * cbn [flat_map app]. rewrite zseq_one. unfold pending. cbn [f_prng f_istart f_m f_k]. replace (start - k =? 0) with false by (symmetry; apply Z.eqb_neq; lia).
        rewrite (div_steps (start - istart) (start - k) 1) by lia. destruct prng as [[pa pb]|].
        -- cbn [Z.eqb]. rewrite app_nil_r. f_equal. cbn. f_equal. lia.
        -- cbn. f_equal; [lia|]. f_equal. lia.
    + apply Z.eqb_neq in U. destruct (idle_slice prng istart i k FI) as [I1 I2]. split; [constructor; [exact I1|constructor]|]. split; [|split].
      * split; cbn [f_prng f_istart f_m f_i f_k]; [lia|]. left. auto.
      * reflexivity.
      * cbn [flat_map]. rewrite app_nil_r, I2. f_equal. rewrite pending_idle by reflexivity. reflexivity.
  - apply Z.eqb_neq in M0. destruct FM as [[C _]|[Hm [Hi [n Hn]]]]; [contradiction|]. subst i.
    destruct (m =? start - k) eqn:MK; cbn [negb orb] in H.
    + (* the step continues *)
      apply Z.eqb_eq in MK. destruct (start + 1 =? stop) eqn:U; cbn [negb orb] in H.
      * apply Z.eqb_eq in U. subst stop. injection H as <- <-. split; [constructor|]. split; [|split].
        -- split; cbn [f_prng f_istart f_m f_i f_k]; [assumption|]. right. split; [lia|]. split; [reflexivity|]. exists (S n). nia.
        -- cbn [f_k]. lia.
        -- cbn [flat_map app]. rewrite zseq_one. unfold pending. cbn [f_prng f_istart f_m f_k]. rewrite <- MK.
           replace (m =? 0) with false by (symmetry; apply Z.eqb_neq; lia).
           rewrite (div_steps (start - istart) m (S (S n))) by nia. rewrite (div_steps (k - istart) m (S n)) by nia.
           destruct prng as [[pa pb]|]; [rewrite <- app_assoc; f_equal; rewrite (arith_snoc _ (S n)); f_equal; f_equal; nia|].
           rewrite (arith_snoc _ (S (S n))). f_equal. f_equal. nia.
      * (* a longer range breaks the step *)
        apply Z.eqb_neq in U. set (stepped := a * m <=? start - istart) in *. destruct (flush_prng stepped m prng istart) as [out1 is'] eqn:EF.
        destruct (flush_ok stepped prng istart m n k k Hm Hn FP out1 is' EF) as [P1 [n' [N1 [N2 N3]]]]. rewrite <- N3. rewrite <- app_assoc.
        destruct stepped.
        -- injection H as <- <-. destruct (N2 eq_refl) as [-> ->]. split; [apply Forall_app; split; [assumption|constructor; [apply neat_prog with (S (S n)); nia|constructor]]|]. split; [|split].
           ++ split; cbn [f_prng f_istart f_m f_i f_k]; [|left; auto]. destruct (start + 1 + 1 <? stop) eqn:L; [apply Z.ltb_lt in L; lia|exact I].
           ++ reflexivity.
           ++ rewrite flat_map_app, <- app_assoc. f_equal. cbn [flat_map]. rewrite app_nil_r.
              replace (start + 1) with (istart + m * Z.of_nat (S (S n)) + 1) at 1 by nia. rewrite expand_prog by assumption.
              rewrite (arith_snoc _ (S (S n))). rewrite <- app_assoc. f_equal.
              replace (istart + m * Z.of_nat (S (S n))) with start by nia.
              rewrite (zseq_app start (start + 1) stop) by lia. rewrite zseq_one. f_equal.
              destruct (start + 1 + 1 <? stop) eqn:L; [rewrite pending_idle by reflexivity; reflexivity|]. rewrite pending_idle by exact I.
              apply Z.ltb_ge in L. replace stop with (start + 1 + 1) at 2 by lia. rewrite zseq_one. f_equal. lia.
        -- injection H as <- <-. split; [apply Forall_app; split; [assumption|apply units_proper]|]. split; [|split].
           ++ split; cbn [f_prng f_istart f_m f_i f_k]; [|left; auto]. destruct (start + 1 <? stop) eqn:L; [apply Z.ltb_lt in L; lia|exact I].
           ++ reflexivity.
           ++ rewrite flat_map_app, units, <- app_assoc. f_equal. rewrite (py_range_arith is' (start - m + 1) m (S n')) by nia. f_equal.
              replace (start + 1 <? stop) with true by (symmetry; apply Z.ltb_lt; lia). rewrite pending_idle by reflexivity. reflexivity.
    + (* the step changes *)
      apply Z.eqb_neq in MK. set (stepped := a * m <=? k - istart) in *. destruct (flush_prng stepped m prng istart) as [out1 is'] eqn:EF.
      destruct (flush_ok stepped prng istart m n k k Hm Hn FP out1 is' EF) as [P1 [n' [N1 [N2 N3]]]]. rewrite <- N3. rewrite <- app_assoc.
      destruct (start + 1 =? stop) eqn:U; cbn [negb] in H.
      * apply Z.eqb_eq in U. subst stop. rewrite zseq_one. destruct stepped.
        -- injection H as <- <-. destruct (N2 eq_refl) as [-> ->]. split; [apply Forall_app; split; [assumption|constructor; [apply neat_prog with (S n); nia|constructor]]|]. split; [|split].
           ++ split; cbn [f_prng f_istart f_m f_i f_k]; [exact I|left; auto].
           ++ cbn [f_k]. lia.
           ++ rewrite flat_map_app, <- app_assoc. f_equal. cbn [flat_map]. rewrite app_nil_r. rewrite N1 at 1. rewrite expand_prog by assumption. reflexivity.
        -- injection H as <- <-. rewrite app_nil_r. split; [apply Forall_app; split; [assumption|apply units_proper]|]. split; [|split].
           ++ split; cbn [f_prng f_istart f_m f_i f_k]; [exact I|]. right. split; [lia|]. split; [reflexivity|]. exists 0%nat. lia.
           ++ cbn [f_k]. lia.
           ++ rewrite flat_map_app, units, <- app_assoc. f_equal. rewrite (py_range_arith is' (k - m + 1) m n') by nia.
              rewrite arith_snoc, <- app_assoc. f_equal. unfold pending. cbn [f_prng f_istart f_m f_k]. replace (start - k =? 0) with false by (symmetry; apply Z.eqb_neq; lia).
              rewrite (div_steps (start - k) (start - k) 1) by lia. cbn. f_equal; [lia|]. f_equal. lia.
      * apply Z.eqb_neq in U. injection H as <- <-. split; [|split; [|split]].
        -- apply Forall_app. split; [assumption|]. destruct stepped; [constructor; [apply neat_prog with n'; lia|constructor]|].
           apply Forall_app. split; [apply units_proper|constructor; [apply neat_run; lia|constructor]].
        -- split; cbn [f_prng f_istart f_m f_i f_k]; [lia|left; auto].
        -- reflexivity.
        -- rewrite flat_map_app, <- app_assoc. f_equal. rewrite pending_idle by reflexivity. f_equal. destruct stepped.
           ++ destruct (N2 eq_refl) as [-> ->]. cbn [flat_map]. rewrite app_nil_r. rewrite N1. apply expand_prog. assumption.
           ++ rewrite flat_map_app, units. rewrite (py_range_arith is' (k - m + 1) m n') by nia. rewrite arith_snoc. f_equal.
              change [unit_slice k] with (map unit_slice [k]). rewrite units. f_equal. assumption.
Qed.

Lemma end_ok : forall a st, fold_inv st -> Forall neat (folded_end a st) /\ flat_map expand (folded_end a st) = pending st.
Proof.
  intros a [prng istart m i k] FI. pose proof FI as [FP FM]. cbn [f_prng f_istart f_m f_i f_k] in FP, FM. cbn [folded_end].
  destruct (m =? 0) eqn:M0.
  - apply Z.eqb_eq in M0. subst m. destruct (idle_slice prng istart i k FI) as [I1 I2]. split; [constructor; [exact I1|constructor]|]. cbn [flat_map]. rewrite app_nil_r. exact I2.
  - apply Z.eqb_neq in M0. destruct FM as [[C _]|[Hm [Hi [n Hn]]]]; [contradiction|]. subst i.
    set (stepped := a * m <=? k - istart) in *. destruct (flush_prng stepped m prng istart) as [out1 is'] eqn:EF.
    destruct (flush_ok stepped prng istart m n k k Hm Hn FP out1 is' EF) as [P1 [n' [N1 [N2 N3]]]]. rewrite <- N3. split.
    + apply Forall_app. split; [assumption|]. destruct stepped; [|apply units_proper]. constructor; [apply neat_prog with n'; lia|constructor].
    + rewrite flat_map_app. f_equal. destruct stepped.
      * cbn [flat_map]. rewrite app_nil_r. rewrite N1. apply expand_prog. assumption.
      * rewrite units. apply py_range_arith; nia.
Qed.

Lemma loop_ok : forall a ss st, fold_inv st -> runs ss -> (forall s, In s ss -> f_k st < sl_start s) ->
  Forall neat (folded_loop a ss (Some st)) /\ flat_map expand (folded_loop a ss (Some st)) = pending st ++ flat_map expand ss.
Proof.
  induction ss as [|s ss IH]; intros st FI [R1 R2] K; cbn [folded_loop].
  - cbn [flat_map]. rewrite app_nil_r. apply end_ok. assumption.
  - destruct (folded_step a (Some st) s) as [out st'] eqn:E. inversion R1 as [|? ? [Q1 Q2] R1']; subst. inversion R2 as [|? ? R2' R3]; subst.
    destruct (step_ok a st s FI Q1 (K s (or_introl eq_refl)) out st' E) as [P1 [FI' [K' P2]]].
    destruct (IH st' FI' (conj R1' R2')) as [I1 I2].
    { intros s' Hs'. rewrite Forall_forall in R3. specialize (R3 s' Hs'). unfold apart in R3. lia. }
    split; [apply Forall_app; split; assumption|]. rewrite flat_map_app, I2, app_assoc, P2, <- app_assoc. f_equal. cbn [flat_map]. f_equal.
    unfold expand. rewrite Q2. symmetry. apply zseq_range.
Qed.

Theorem folded_spec : forall a r, ascending (rs_elems r) -> Forall neat (folded_slices a r) /\ flat_map expand (folded_slices a r) = rs_elems r.
Proof.
  intros a r A. destruct (contiguous_spec r A) as [F [R1 R2]]. unfold folded_slices. rewrite <- F. destruct (contiguous_slices r) as [|s ss]; [split; constructor|].
  clear F A. cbn [folded_loop folded_step]. inversion R1 as [|? ? [Q1 Q2] R1']; subst. inversion R2 as [|? ? R2' R3]; subst. rewrite Forall_forall in R3.
  destruct (sl_start s + 1 =? sl_stop s) eqn:U; cbn [app].
  - apply Z.eqb_eq in U. destruct (loop_ok a ss {| f_prng := None; f_istart := sl_start s; f_m := sl_start s - sl_start s; f_i := sl_start s; f_k := sl_start s |}) as [I1 I2].
    + split; cbn [f_prng f_istart f_m f_i f_k]; [exact I|left; split; lia].
    + split; assumption.
    + intros s' Hs'. specialize (R3 s' Hs'). unfold apart in R3. cbn [f_k]. lia.
    + split; [exact I1|]. rewrite I2. cbn [flat_map]. f_equal. rewrite Z.sub_diag. rewrite pending_idle by exact I. unfold expand. rewrite Q2, zseq_range, <- U, zseq_one. reflexivity.
  - apply Z.eqb_neq in U.
    destruct (loop_ok a ss {| f_prng := Some (sl_start s, sl_stop s); f_istart := sl_stop s - 1; f_m := sl_stop s - 1 - (sl_stop s - 1); f_i := sl_stop s - 1; f_k := sl_stop s - 1 |}) as [I1 I2].
    + split; cbn [f_prng f_istart f_m f_i f_k]; [lia|left; split; lia].
    + split; assumption.
    + intros s' Hs'. specialize (R3 s' Hs'). unfold apart in R3. cbn [f_k]. lia.
    + split; [exact I1|]. rewrite I2. cbn [flat_map]. f_equal. rewrite Z.sub_diag. rewrite pending_idle by reflexivity. unfold expand. rewrite Q2, zseq_range. reflexivity.
Qed.

Theorem slices_neat : forall r, ascending (rs_elems r) -> Forall neat (slices r) /\ flat_map expand (slices r) = rs_elems r.
Proof.
  intros r A. assert (C : Forall neat (contiguous_slices r) /\ flat_map expand (contiguous_slices r) = rs_elems r).
  { destruct (contiguous_spec r A) as [F [R1 R2]]. split; [|assumption]. apply Forall_impl with (2 := R1). intros [x y z] [H1 H2]. cbn in *. subst z. apply neat_run. lia. }
  unfold slices. destruct (rs_step r) as [a|]; [|exact C]. destruct (e100 <=? a); [exact C|]. apply folded_spec. assumption.
Qed.

Theorem slices_spec : forall r, ascending (rs_elems r) -> Forall proper (slices r) /\ flat_map expand (slices r) = rs_elems r.
Proof. intros r A. destruct (slices_neat r A) as [N F]. split; [|assumption]. apply Forall_impl with (2 := N). intros s H. apply H. Qed.

(** ** Reading what was written *)

Lemma set_add_snoc : forall l x, Forall (fun y => y < x) l -> set_add x l = l ++ [x].
Proof.
  induction l as [|y l IH]; intros x H; [reflexivity|]. inversion H as [|? ? H1 H2]; subst. cbn [set_add app].
  replace (x <? y) with false by (symmetry; apply Z.ltb_ge; lia). replace (x =? y) with false by (symmetry; apply Z.eqb_neq; lia). rewrite IH by assumption. reflexivity.
Qed.
Lemma asc_app : forall l l', ascending (l ++ l') -> forall x y, In x l -> In y l' -> x < y.
Proof.
  induction l as [|z l IH]; intros l' H x y Hx Hy; [contradiction|]. inversion H as [|? ? H1 H2]; subst. rewrite Forall_forall in H2. destruct Hx as [->|Hx].
  - apply H2. apply in_or_app. right. assumption.
  - eapply IH; eassumption.
Qed.
Lemma set_update_app : forall xs l, ascending (l ++ xs) -> set_update l xs = l ++ xs.
Proof.
  induction xs as [|x xs IH]; intros l H; [rewrite app_nil_r; reflexivity|]. unfold set_update. cbn [fold_left].
  rewrite set_add_snoc.
  - replace (l ++ x :: xs) with ((l ++ [x]) ++ xs) in * by (rewrite <- app_assoc; reflexivity). apply IH. assumption.
  - apply Forall_forall. intros y Hy. eapply asc_app; [exact H|exact Hy|left; reflexivity].
Qed.

(** *** Numerals *)
Definition is_digit (c : N) : Prop := (48 <= c <= 57)%N.
Lemma digit_cases : forall c, is_digit c -> exists d, digit_of c = Some d.
Proof.
  intros c [H1 H2]. assert (H : (c = 48 \/ c = 49 \/ c = 50 \/ c = 51 \/ c = 52 \/ c = 53 \/ c = 54 \/ c = 55 \/ c = 56 \/ c = 57)%N) by lia.
  repeat (destruct H as [->|H]; [eexists; reflexivity|]). subst c. eexists. reflexivity.
Qed.
Lemma uint_chars_digits : forall u, Forall is_digit (uint_chars u).
Proof. induction u; cbn [uint_chars]; constructor; try assumption; unfold is_digit; lia. Qed.
Lemma read_cons : forall c d s u, digit_of c = Some d -> s <> [] -> Forall is_digit s -> read_digits s = Some u -> read_digits (c :: s) = Some (d u).
Proof.
  intros c d s u Hd Hs Hf Hr. cbn [read_digits]. rewrite Hd. destruct s as [|c' s']; [contradiction|]. inversion Hf as [|? ? H1 _]; subst.
  replace (c' =? 95)%N with false by (symmetry; apply N.eqb_neq; unfold is_digit in H1; lia). rewrite Hr. reflexivity.
Qed.
Lemma read_uint : forall u, u <> Decimal.Nil -> read_digits (uint_chars u) = Some u.
Proof.
  induction u; intros H; [contradiction| | | | | | | | | |]; cbn [uint_chars];
  (destruct (uint_chars u) as [|c s] eqn:E;
   [assert (u = Decimal.Nil) by (destruct u; [reflexivity|discriminate..]); subst u; reflexivity|
    apply read_cons; [reflexivity|discriminate|rewrite <- E; apply uint_chars_digits|apply IHu; intros ->; discriminate]]).
Qed.
Lemma read_zeros : forall n s u, s <> [] -> Forall is_digit s -> read_digits s = Some u -> exists u', read_digits (repeat 48%N n ++ s) = Some u' /\ N.of_uint u' = N.of_uint u.
Proof.
  induction n as [|n IH]; intros s u Hs Hf Hr; [exists u; auto|]. destruct (IH s u Hs Hf Hr) as [u' [R1 R2]]. exists (Decimal.D0 u'). split; [|exact R2].
  cbn [repeat app]. apply read_cons; [reflexivity| |apply Forall_app; split; [apply Forall_forall; intros c Hc; apply repeat_spec in Hc; subst; unfold is_digit; lia|assumption]|assumption].
  intros E. apply app_eq_nil in E. destruct E. contradiction.
Qed.
Lemma to_uint_not_nil : forall n, N.to_uint n <> Decimal.Nil.
Proof. intros n H. pose proof (DecimalN.Unsigned.of_to n) as E. destruct n as [|p]; [discriminate H|]. rewrite H in E. discriminate E. Qed.

(** The number a string of digits stands for. *)
Definition num_from (a : N) (s : str) : N := fold_left (fun a c => 10 * a + (c - 48))%N s a.
Lemma num_acc : forall u a, N.pos (Pos.of_uint_acc u a) = num_from (N.pos a) (uint_chars u).
Proof.
  induction u; intros a; cbn [Pos.of_uint_acc uint_chars num_from fold_left]; [reflexivity| | | | | | | | | |]; (rewrite IHu; unfold num_from; f_equal; lia).
Qed.
Lemma num_uint : forall u, N.of_uint u = num_from 0 (uint_chars u).
Proof.
  induction u; [reflexivity|exact IHu| | | | | | | | |]; unfold N.of_uint; cbn [Pos.of_uint uint_chars num_from fold_left]; rewrite num_acc; reflexivity.
Qed.
Lemma num_lower : forall s a, (a * 10 ^ N.of_nat (length s) <= num_from a s)%N.
Proof.
  induction s as [|c s IH]; intros a; cbn [length num_from fold_left]; [change (10 ^ N.of_nat 0)%N with 1%N; lia|].
  etransitivity; [|apply IH]. rewrite Nat2N.inj_succ, N.pow_succ_r'. nia.
Qed.
Lemma num_upper : forall s a, Forall is_digit s -> (num_from a s < (a + 1) * 10 ^ N.of_nat (length s))%N.
Proof.
  induction s as [|c s IH]; intros a H; cbn [length num_from fold_left]; [change (10 ^ N.of_nat 0)%N with 1%N; lia|]. inversion H as [|? ? [H1 H2] H3]; subst.
  eapply N.lt_le_trans; [apply IH; assumption|]. rewrite Nat2N.inj_succ, N.pow_succ_r'. nia.
Qed.

Lemma to_uint_head : forall n u, N.to_uint n = Decimal.D0 u -> n = 0%N.
Proof.
  intros n u H. pose proof (DecimalN.Unsigned.to_of (N.to_uint n)) as E. rewrite DecimalN.Unsigned.of_to in E. rewrite H in E.
  unfold Decimal.unorm in E. cbn [Decimal.nzhead] in E. destruct (Decimal.nzhead u) as [| | | | | | | | | |] eqn:Z; try discriminate E.
  - injection E as ->. pose proof (DecimalN.Unsigned.of_to n) as E2. rewrite H in E2. symmetry. exact E2.
  - exfalso. exact (DecimalFacts.nzhead_nonzero _ _ Z).
Qed.

(** *** Widths *)
Definition width (z : Z) : nat := length (uint_chars (N.to_uint (Z.abs_N z))).
Lemma width_pos : forall z, (1 <= width z)%nat.
Proof. intros z. unfold width. destruct (uint_chars (N.to_uint (Z.abs_N z))) eqn:E; [|cbn; lia]. exfalso. apply (to_uint_not_nil (Z.abs_N z)). destruct (N.to_uint (Z.abs_N z)); [reflexivity|discriminate..]. Qed.
Lemma head_digit : forall z, 0 < z -> exists c s, uint_chars (N.to_uint (Z.abs_N z)) = c :: s /\ (49 <= c <= 57)%N.
Proof.
  intros z Hz. destruct (N.to_uint (Z.abs_N z)) eqn:E; cbn [uint_chars]; try (eexists; eexists; split; [reflexivity|lia]).
  - exfalso. exact (to_uint_not_nil _ E).
  - exfalso. apply to_uint_head in E. lia.
Qed.
Lemma width_mono : forall x y, 0 <= x -> x <= y -> (width x <= width y)%nat.
Proof.
  intros x y Hx Hxy. destruct (Z.eq_dec x 0) as [->|Nx]; [exact (width_pos y)|].
  destruct (Nat.le_gt_cases (width x) (width y)) as [L|L]; [exact L|exfalso].
  destruct (head_digit x ltac:(lia)) as [c [s [E Hc]]].
  assert (X : (10 ^ N.of_nat (length s) <= Z.abs_N x)%N).
  { rewrite <- (DecimalN.Unsigned.of_to (Z.abs_N x)), num_uint, E. cbn [num_from fold_left]. etransitivity; [|apply num_lower]. nia. }
  assert (Y : (Z.abs_N y < 10 ^ N.of_nat (width y))%N).
  { rewrite <- (DecimalN.Unsigned.of_to (Z.abs_N y)) at 1. rewrite num_uint. eapply N.lt_le_trans; [apply num_upper; apply uint_chars_digits|]. unfold width. nia. }
  assert (P : (10 ^ N.of_nat (width y) <= 10 ^ N.of_nat (length s))%N).
  { apply N.pow_le_mono_r; [lia|]. unfold width in L at 2. rewrite E in L. cbn [length] in L. lia. }
  lia.
Qed.

Lemma fmt_nonneg : forall p z, 0 <= z -> fmt p z = repeat 48%N (Z.to_nat p - width z) ++ uint_chars (N.to_uint (Z.abs_N z)).
Proof. intros. unfold fmt. replace (z <? 0) with false by (symmetry; apply Z.ltb_ge; lia). cbn [app length]. rewrite Nat.sub_0_r. reflexivity. Qed.
Lemma fmt_digits : forall p z, 0 <= z -> Forall is_digit (fmt p z).
Proof.
  intros. rewrite fmt_nonneg by assumption. apply Forall_app. split; [|apply uint_chars_digits]. apply Forall_forall. intros c Hc. apply repeat_spec in Hc. subst. unfold is_digit. lia.
Qed.
Lemma fmt_length : forall p z, 0 <= z -> length (fmt p z) = Nat.max (Z.to_nat p) (width z).
Proof. intros. rewrite fmt_nonneg, app_length, repeat_length by assumption. fold (width z). lia. Qed.
Lemma fmt_not_nil : forall p z, 0 <= z -> fmt p z <> [].
Proof. intros p z H E. pose proof (fmt_length p z H) as L. rewrite E in L. cbn in L. pose proof (width_pos z). lia. Qed.
Lemma fmt_wide : forall p z, 0 <= z -> (Z.to_nat p <= width z)%nat -> fmt p z = fmt 0 z.
Proof. intros. rewrite !fmt_nonneg by assumption. replace (Z.to_nat p - width z)%nat with 0%nat by lia. reflexivity. Qed.

Section Text.
  Variable cc : cclass.
  Hypothesis space_digit : forall c, is_digit c -> iss cc c = false.

  Lemma span_none : forall (p : N -> bool) s, Forall (fun c => p c = false) s -> span p s = ([], s).
  Proof. intros p [|c s] H; [reflexivity|]. inversion H; subst. cbn [span]. rewrite H2. reflexivity. Qed.
  Lemma strip_digits : forall s, Forall is_digit s -> strip cc s = s.
  Proof.
    intros s H. assert (F : forall s, Forall is_digit s -> Forall (fun c => iss cc c = false) s) by (intros s0 H0; apply Forall_impl with (2 := H0); exact space_digit).
    unfold strip, rstrip. rewrite (span_none _ (rev s)) by (apply F; apply Forall_rev; assumption). cbn [snd]. rewrite rev_involutive. rewrite span_none by (apply F; assumption). reflexivity.
  Qed.
  Lemma int_digits : forall s u, Forall is_digit s -> read_digits s = Some u -> py_int cc s = Some (Z.of_N (N.of_uint u)).
  Proof.
    intros s u H R. unfold py_int. rewrite strip_digits by assumption. destruct s as [|c s]; [discriminate|]. inversion H as [|? ? [H1 H2] _]; subst.
    replace (c =? 45)%N with false by (symmetry; apply N.eqb_neq; lia). replace (c =? 43)%N with false by (symmetry; apply N.eqb_neq; lia). rewrite R. reflexivity.
  Qed.
  Lemma int_uint : forall n, py_int cc (uint_chars (N.to_uint n)) = Some (Z.of_N n).
  Proof.
    intros n. rewrite (int_digits _ (N.to_uint n)); [rewrite DecimalN.Unsigned.of_to; reflexivity|apply uint_chars_digits|apply read_uint; apply to_uint_not_nil].
  Qed.
  Lemma int_fmt : forall p z, 0 <= z -> int_or_error cc (fmt p z) = Ok z.
  Proof.
    intros p z Hz. pose proof (fmt_digits p z Hz) as D. rewrite fmt_nonneg in * by assumption.
    destruct (read_zeros (Z.to_nat p - width z) (uint_chars (N.to_uint (Z.abs_N z))) (N.to_uint (Z.abs_N z))) as [u [R1 R2]].
    - intros E. pose proof (width_pos z) as W. unfold width in W. rewrite E in W. cbn in W. lia.
    - apply uint_chars_digits.
    - apply read_uint. apply to_uint_not_nil.
    - unfold int_or_error. rewrite (int_digits _ u D R1), R2, DecimalN.Unsigned.of_to. f_equal. lia.
  Qed.
  Lemma lstrip_fmt : forall p z, 0 < z -> lstrip0 (fmt p z) = uint_chars (N.to_uint (Z.abs_N z)).
  Proof.
    intros p z Hz. rewrite fmt_nonneg by lia. unfold lstrip0. induction (Z.to_nat p - width z)%nat as [|n IH].
    - cbn [repeat app]. destruct (head_digit z Hz) as [c [s [E Hc]]]. rewrite E. cbn [span]. replace (48 =? c)%N with false by (symmetry; apply N.eqb_neq; lia). reflexivity.
    - cbn [repeat app span]. replace (48 =? 48)%N with true by reflexivity. destruct (span (N.eqb 48) (repeat 48%N n ++ uint_chars (N.to_uint (Z.abs_N z)))). exact IH.
  Qed.
  Lemma int_lstrip : forall p z, 0 < z -> int_or_error cc (lstrip0 (fmt p z)) = Ok z.
  Proof. intros. rewrite lstrip_fmt by assumption. unfold int_or_error. rewrite int_uint. f_equal. lia. Qed.

  Lemma split1_none : forall c s, ~ In c s -> split1 c s = None.
  Proof.
    intros c s. induction s as [|x s IH]; intros H; [reflexivity|]. cbn [split1]. replace (x =? c)%N with false by (symmetry; apply N.eqb_neq; intros ->; apply H; left; reflexivity).
    rewrite IH; [reflexivity|]. intros Q. apply H. right. assumption.
  Qed.
  Lemma split1_some : forall c s t, ~ In c s -> split1 c (s ++ c :: t) = Some (s, t).
  Proof.
    intros c s t. induction s as [|x s IH]; intros H; cbn [app split1]; [rewrite N.eqb_refl; reflexivity|].
    replace (x =? c)%N with false by (symmetry; apply N.eqb_neq; intros ->; apply H; left; reflexivity).
    rewrite IH; [reflexivity|]. intros Q. apply H. right. assumption.
  Qed.
  Lemma digits_no : forall s c, Forall is_digit s -> ~ is_digit c -> ~ In c s.
  Proof. intros s c H N Q. rewrite Forall_forall in H. apply N. apply H. exact Q. Qed.

  (** The padding a reader sees in a number written with padding [p]. *)
  Definition seen (p z : Z) : Z := if (width z <? Z.to_nat p)%nat then p else 0.

  Lemma begin_ok : forall p z, 0 <= p -> 0 <= z ->
    (b <- int_or_error cc (fmt p z) ;;
     (if negb (b =? 0) then
        let begins := lstrip0 (fmt p z) in
        let pad := if 0 <? Z.of_nat (length (fmt p z)) - Z.of_nat (length begins) then Z.of_nat (length (fmt p z)) else 0 in
        s <- int_or_error cc begins ;; Ok (s, pad)
      else Ok (0, if 1 <? Z.of_nat (length (fmt p z)) then Z.of_nat (length (fmt p z)) else 0))) = Ok (z, seen p z).
  Proof.
    intros p z Hp Hz. rewrite int_fmt by assumption. cbn [bind]. destruct (z =? 0) eqn:E; cbn [negb].
    - apply Z.eqb_eq in E. subst z. f_equal. f_equal. rewrite fmt_length by lia. unfold seen. change (width 0) with 1%nat.
      destruct (1 <? Z.to_nat p)%nat eqn:E; [apply Nat.ltb_lt in E|apply Nat.ltb_ge in E].
      + replace (1 <? Z.of_nat (Nat.max (Z.to_nat p) 1)) with true by (symmetry; apply Z.ltb_lt; lia). lia.
      + replace (1 <? Z.of_nat (Nat.max (Z.to_nat p) 1)) with false by (symmetry; apply Z.ltb_ge; lia). reflexivity.
    - apply Z.eqb_neq in E. cbn zeta. rewrite int_lstrip by lia. cbn [bind]. f_equal. f_equal. rewrite lstrip_fmt, fmt_length by lia. fold (width z). unfold seen.
      destruct (width z <? Z.to_nat p)%nat eqn:L; [apply Nat.ltb_lt in L|apply Nat.ltb_ge in L].
      + replace (0 <? Z.of_nat (Nat.max (Z.to_nat p) (width z)) - Z.of_nat (width z)) with true by (symmetry; apply Z.ltb_lt; lia). lia.
      + replace (0 <? Z.of_nat (Nat.max (Z.to_nat p) (width z)) - Z.of_nat (width z)) with false by (symmetry; apply Z.ltb_ge; lia). reflexivity.
  Qed.
  Lemma end_number : forall p z, 0 <= z -> (e <- int_or_error cc (fmt p z) ;; int_or_error cc (if negb (e =? 0) then lstrip0 (fmt p z) else fmt p z)) = Ok z.
  Proof.
    intros p z Hz. rewrite int_fmt by assumption. cbn [bind]. destruct (z =? 0) eqn:E; cbn [negb].
    - apply int_fmt. assumption.
    - apply Z.eqb_neq in E. apply int_lstrip. lia.
  Qed.

  (** A slice whose text can be read back. *)
  Definition readable (s : pslice) : Prop := proper s /\ 0 <= sl_start s /\ sl_stop s - 1 <= e100 /\ sl_stop s - sl_start s < e9.

  Definition slice_text (p : Z) (s : pslice) : str :=
    if sl_start s + 1 =? sl_stop s then fmt p (sl_start s)
    else fmt p (sl_start s) ++ 45%N :: fmt p (sl_stop s - 1) ++ (if sl_step s =? 1 then [] else 47%N :: fmt 0 (sl_step s)).
  Lemma slice_text_ok : forall p s, proper s -> str_slice p s = Ok (slice_text p s).
  Proof.
    intros p s [H1 H2]. unfold str_slice, slice_text. destruct (sl_start s + 1 =? sl_stop s); [reflexivity|].
    replace (0 <=? sl_step s) with true by (symmetry; apply Z.leb_le; lia). cbn [negb]. destruct (sl_step s =? 1); [rewrite app_nil_r; reflexivity|reflexivity].
  Qed.

  Definition with_pad (r : rangeset) (p : Z) : option Z := if 0 <? p then match rs_pad r with None => Some p | q => q end else rs_pad r.

  Lemma parse_slice : forall p s r, 0 <= p -> readable s ->
    parse_subrange cc r (slice_text p s) =
    Ok {| rs_elems := set_update (rs_elems r) (expand s); rs_pad := with_pad r (seen p (sl_start s)); rs_step := rs_step r |}.
  Proof.
    intros p [start stop step] r Hp [[H1 H2] [H3 [H4 H5]]]. cbn [sl_start sl_stop sl_step] in *. unfold slice_text. cbn [sl_start sl_stop sl_step].
    assert (N47 : ~ is_digit 47%N) by (unfold is_digit; lia). assert (N45 : ~ is_digit 45%N) by (unfold is_digit; lia).
    pose proof (fmt_digits p start H3) as D1. pose proof (fmt_digits p (stop - 1) ltac:(lia)) as D2. pose proof (fmt_digits 0 step ltac:(lia)) as D3.
    assert (SP : 0 <= seen p start) by (unfold seen; destruct (_ <? _)%nat; lia).
    assert (AR : forall st', 0 < st' -> add_range r start (stop - 1 + 1) st' (seen p start) =
              Ok {| rs_elems := set_update (rs_elems r) (py_range start stop st'); rs_pad := with_pad r (seen p start); rs_step := rs_step r |}).
    { intros st' Hst. unfold add_range. replace (stop - 1 + 1) with stop by lia. replace (start <? stop) with true by (symmetry; apply Z.ltb_lt; lia). replace (0 <? st') with true by (symmetry; apply Z.ltb_lt; lia).
      replace (0 <=? seen p start) with true by (symmetry; apply Z.leb_le; lia). replace (stop - start <? e9) with true by (symmetry; apply Z.ltb_lt; lia). reflexivity. }
    assert (CK : forall st', 0 < st' -> (e100 <? stop - 1) || (stop - 1 <? start) || (st' <? 1) = false).
    { intros st' Hst. replace (e100 <? stop - 1) with false by (symmetry; apply Z.ltb_ge; lia). replace (stop - 1 <? start) with false by (symmetry; apply Z.ltb_ge; lia). cbn [orb]. apply Z.ltb_ge. lia. }
    pose proof (begin_ok p start Hp H3) as B. pose proof (end_number p (stop - 1) ltac:(lia)) as F.
    rewrite int_fmt in B by assumption. cbn [bind] in B. rewrite int_fmt in F by lia. cbn [bind] in F.
    destruct (start + 1 =? stop) eqn:U.
    - apply Z.eqb_eq in U. unfold parse_subrange. rewrite (split1_none 47) by (apply digits_no; assumption). cbn [bind]. rewrite (split1_none 45) by (apply digits_no; assumption). cbn [Z.eqb negb bind].
      change (Pos.eqb 1 1) with true. cbn [negb bind]. rewrite int_fmt by assumption. cbn [bind]. cbn zeta in B |- *. rewrite B. cbn [bind].
      assert (ES : stop - 1 = start) by lia. rewrite ES in F. rewrite F. cbn [bind].
      specialize (CK 1 ltac:(lia)). rewrite ES in CK. rewrite CK. specialize (AR 1 ltac:(lia)). rewrite ES in AR. rewrite AR. f_equal. f_equal.
      unfold expand. cbn [sl_start sl_stop sl_step]. f_equal. subst stop. rewrite zseq_range, zseq_one. symmetry. rewrite (py_range_arith start (start + 1) step 1) by lia. cbn. f_equal. lia.
    - apply Z.eqb_neq in U. destruct (step =? 1) eqn:S1.
      + apply Z.eqb_eq in S1. subst step. rewrite app_nil_r. unfold parse_subrange.
        rewrite (split1_none 47).
        2:{ intros Q. apply in_app_iff in Q as [Q|[Q|Q]]; [exact (digits_no _ _ D1 N47 Q)|discriminate Q|exact (digits_no _ _ D2 N47 Q)]. }
        cbn [bind]. rewrite split1_some by (apply digits_no; assumption). cbn [bind]. rewrite int_fmt by assumption. cbn [bind]. cbn zeta in B |- *. rewrite B. cbn [bind].
        rewrite int_fmt by lia. cbn [bind]. rewrite F. cbn [bind]. rewrite (CK 1), (AR 1) by lia. reflexivity.
      + apply Z.eqb_neq in S1. unfold parse_subrange. replace (fmt p start ++ 45%N :: fmt p (stop - 1) ++ 47%N :: fmt 0 step) with ((fmt p start ++ 45%N :: fmt p (stop - 1)) ++ 47%N :: fmt 0 step) by (rewrite <- app_assoc; reflexivity).
        rewrite (split1_some 47).
        2:{ intros Q. apply in_app_iff in Q as [Q|[Q|Q]]; [exact (digits_no _ _ D1 N47 Q)|discriminate Q|exact (digits_no _ _ D2 N47 Q)]. }
        rewrite (int_fmt 0 step) by lia. cbn [bind]. rewrite split1_some by (apply digits_no; assumption). cbn [bind]. rewrite int_fmt by assumption. cbn [bind]. cbn zeta in B |- *. rewrite B. cbn [bind].
        rewrite int_fmt by lia. cbn [bind]. rewrite F. cbn [bind]. rewrite (CK step), (AR step) by lia. reflexivity.
  Qed.

  Lemma slice_text_no_comma : forall p s, readable s -> ~ In 44%N (slice_text p s).
  Proof.
    intros p s [[H1 H2] [H3 _]] Q. assert (N44 : ~ is_digit 44%N) by (unfold is_digit; lia). unfold slice_text in Q.
    destruct (_ =? sl_stop s); [exact (digits_no _ _ (fmt_digits p _ H3) N44 Q)|].
    apply in_app_iff in Q as [Q|[Q|Q]]; [exact (digits_no _ _ (fmt_digits p _ H3) N44 Q)|discriminate Q|].
    apply in_app_iff in Q as [Q|Q]; [apply (digits_no _ _ (fmt_digits p (sl_stop s - 1) ltac:(lia)) N44 Q)|].
    destruct (sl_step s =? 1); [contradiction|]. destruct Q as [Q|Q]; [discriminate Q|]. exact (digits_no _ _ (fmt_digits 0 (sl_step s) ltac:(lia)) N44 Q).
  Qed.
End Text.

Lemma split_on_none : forall c s, ~ In c s -> split_on c s = [s].
Proof.
  intros c s. induction s as [|x s IH]; intros H; [reflexivity|]. cbn [split_on]. replace (x =? c)%N with false by (symmetry; apply N.eqb_neq; intros ->; apply H; left; reflexivity).
  rewrite IH; [reflexivity|]. intros Q. apply H. right. assumption.
Qed.
Lemma split_on_cons : forall c s t, ~ In c s -> split_on c (s ++ c :: t) = s :: split_on c t.
Proof.
  intros c s t. induction s as [|x s IH]; intros H; cbn [app split_on]; [rewrite N.eqb_refl; reflexivity|].
  replace (x =? c)%N with false by (symmetry; apply N.eqb_neq; intros ->; apply H; left; reflexivity).
  rewrite IH; [reflexivity|]. intros Q. apply H. right. assumption.
Qed.
Lemma split_join : forall c ps, ps <> [] -> Forall (fun p => ~ In c p) ps -> split_on c (str_join [c] ps) = ps.
Proof.
  intros c ps. induction ps as [|p ps IH]; intros H F; [contradiction|]. inversion F as [|? ? F1 F2]; subst. destruct ps as [|q ps].
  - apply split_on_none. assumption.
  - change (str_join [c] (p :: q :: ps)) with (p ++ c :: str_join [c] (q :: ps)). rewrite split_on_cons by assumption. rewrite IH; [reflexivity|discriminate|assumption].
Qed.

Section RoundTrip.
  Variable cc : cclass.
  Hypothesis space_digit : forall c, is_digit c -> iss cc c = false.

  Lemma parse_slices : forall p ss r, 0 <= p -> Forall readable ss -> ascending (rs_elems r ++ flat_map expand ss) ->
    exists r', foldM (parse_subrange cc) (map (slice_text p) ss) r = Ok r' /\ rs_elems r' = rs_elems r ++ flat_map expand ss /\ rs_step r' = rs_step r /\
      (rs_pad r' = rs_pad r /\ (rs_pad r = None -> Forall (fun s => (Z.to_nat p <= width (sl_start s))%nat) ss) \/ rs_pad r = None /\ rs_pad r' = Some p).
  Proof.
    intros p ss. induction ss as [|s ss IH]; intros r Hp Hr A; cbn [map foldM flat_map].
    - exists r. rewrite app_nil_r. split; [reflexivity|]. split; [reflexivity|]. split; [reflexivity|]. left. split; [reflexivity|]. constructor.
    - inversion Hr as [|? ? R1 R2]; subst. cbn [flat_map] in A. rewrite (parse_slice cc space_digit p s r Hp R1). cbn [bind].
      assert (U : set_update (rs_elems r) (expand s) = rs_elems r ++ expand s).
      { apply set_update_app. rewrite app_assoc in A. revert A. generalize (rs_elems r ++ expand s). intros l. induction l as [|x l IHl]; intros A; [constructor|].
        inversion A as [|? ? A1 A2]; subst. constructor; [apply IHl; assumption|]. apply Forall_app in A2. apply A2. }
      rewrite U. destruct (IH {| rs_elems := rs_elems r ++ expand s; rs_pad := with_pad r (seen p (sl_start s)); rs_step := rs_step r |} Hp R2) as [r' [E1 [E2 [E3 E4]]]].
      { cbn [rs_elems]. rewrite <- app_assoc. exact A. }
      cbn [rs_elems rs_pad rs_step] in *. exists r'. split; [exact E1|]. split; [rewrite E2, <- app_assoc; reflexivity|]. split; [exact E3|].
      unfold with_pad, seen in E4. destruct (width (sl_start s) <? Z.to_nat p)%nat eqn:L.
      + apply Nat.ltb_lt in L. replace (0 <? p) with true in E4 by (symmetry; apply Z.ltb_lt; lia). destruct (rs_pad r) as [q|].
        * destruct E4 as [[E4 E5]|[E4 E5]]; [|discriminate]. left. split; [assumption|discriminate].
        * destruct E4 as [[E4 E5]|[E4 E5]]; [right; auto|discriminate].
      + apply Nat.ltb_ge in L. cbn [Z.ltb Z.compare] in E4. destruct E4 as [[E4 E5]|[E4 E5]]; [left|right; auto]. split; [assumption|]. intros Q. constructor; auto.
  Qed.

  Lemma rs_str_ok : forall r, ascending (rs_elems r) -> rs_str r = Ok (str_join (lit ",") (map (slice_text (rs_padding r)) (slices r))).
  Proof.
    intros r A. destruct (slices_spec r A) as [P _]. unfold rs_str.
    assert (M : forall p ss, Forall proper ss -> mapM (str_slice p) ss = Ok (map (slice_text p) ss)).
    { intros p ss H. induction H as [|s ss H1 H2 IH]; [reflexivity|]. cbn [mapM map]. rewrite slice_text_ok by assumption. cbn [bind]. rewrite IH. reflexivity. }
    rewrite M by assumption. reflexivity.
  Qed.

  Theorem round_trip : forall r autostep, ascending (rs_elems r) -> rs_elems r <> [] -> 0 <= rs_padding r -> Forall readable (slices r) ->
    exists s r', rs_str r = Ok s /\ parse cc s autostep = Ok r' /\ rs_elems r' = rs_elems r /\ rs_step r' = rs_step (rs_empty autostep) /\
      (rs_step (rs_empty autostep) = rs_step r -> rs_str r' = Ok s).
  Proof.
    intros r autostep A NE Hp Hr. destruct (slices_spec r A) as [P F]. rewrite rs_str_ok by assumption.
    destruct (parse_slices (rs_padding r) (slices r) (rs_empty autostep) Hp Hr) as [r' [E1 [E2 [E3 E4]]]]; [cbn [rs_empty set_autostep rs_elems app]; rewrite F; assumption|].
    cbn [rs_empty set_autostep rs_elems app rs_pad] in E2, E4. rewrite F in E2.
    eexists. exists r'. split; [reflexivity|]. unfold parse. change (lit ",") with [44%N]. rewrite split_join.
    - split; [exact E1|]. split; [assumption|]. split; [assumption|]. intros S. rewrite rs_str_ok by (rewrite E2; assumption). f_equal. f_equal.
      assert (SS : slices r' = slices r) by (unfold slices, folded_slices, contiguous_slices; rewrite E3, S, E2; reflexivity). rewrite SS.
      destruct E4 as [[E4 E5]|[_ E4]].
      + specialize (E5 eq_refl). unfold rs_padding at 1. rewrite E4. apply map_ext_in. intros s Hs. rewrite Forall_forall in E5, Hr. specialize (E5 s Hs). destruct (Hr s Hs) as [[H1 H2] [H3 _]].
        unfold slice_text. rewrite <- (fmt_wide (rs_padding r) (sl_start s)) by assumption.
        rewrite <- (fmt_wide (rs_padding r) (sl_stop s - 1)); [reflexivity|lia|]. etransitivity; [exact E5|]. apply width_mono; lia.
      + unfold rs_padding at 1. rewrite E4. reflexivity.
    - intros Q. apply map_eq_nil in Q. rewrite Q in F. cbn in F. apply NE. symmetry. exact F.
    - apply Forall_forall. intros t Ht. apply in_map_iff in Ht as [s [<- Hs]]. apply slice_text_no_comma. rewrite Forall_forall in Hr. apply Hr. assumption.
  Qed.
End RoundTrip.

(** Every slice runs from an element to an element. *)
Lemma slice_bounds : forall r s, ascending (rs_elems r) -> In s (slices r) -> In (sl_start s) (rs_elems r) /\ In (sl_stop s - 1) (rs_elems r) /\ proper s.
Proof.
  intros r s A Hs. destruct (slices_neat r A) as [P F]. rewrite Forall_forall in P. destruct (P s Hs) as [[H1 H2] [n Hn]].
  assert (G : forall x, denotes s x -> In x (rs_elems r)).
  { intros x D. rewrite <- F. apply in_flat_map. exists s. split; [assumption|]. apply (proj2 (expand_listing s H2)). exact D. }
  split; [|split; [|split; assumption]]; apply G; [exists 0; lia|]. exists (Z.of_nat n). lia.
Qed.

(** ** Contiguous range sets *)
Lemma zseq_In : forall a b x, In x (zseq a b) <-> a <= x < b.
Proof.
  intros. unfold zseq. rewrite arith_In. split; [intros [j [H ->]]; lia|]. intros H. exists (Z.to_nat (x - a)). lia.
Qed.
Lemma set_update_nil : forall l, ascending l -> set_update [] l = l.
Proof. intros l H. apply (set_update_app l []). exact H. Qed.

Theorem contiguous_total : forall r, ascending (rs_elems r) -> (forall x, In x (rs_elems r) -> 0 <= x) -> 0 <= rs_padding r ->
  Forall (fun s => sl_stop s - sl_start s < e9) (contiguous_slices r) ->
  exists rs, rs_contiguous r = Ok rs /\ map rs_elems rs = map expand (contiguous_slices r).
Proof.
  intros r A P Hp B. destruct (contiguous_spec r A) as [F [R _]].
  assert (S : forall s, In s (contiguous_slices r) -> 0 <= sl_start s).
  { intros s Hs. apply P. rewrite <- F. apply in_flat_map. exists s. split; [assumption|]. rewrite Forall_forall in R. destruct (R s Hs) as [R1 R2]. unfold expand. rewrite R2, zseq_range. apply zseq_In. lia. }
  unfold rs_contiguous. clear F A P. induction (contiguous_slices r) as [|s ss IH]; [exists []; split; reflexivity|]. inversion R as [|? ? [R1 R2] R3]; subst. inversion B as [|? ? B1 B2]; subst.
  destruct IH as [rs [E1 E2]]; [assumption|assumption|intros s' Hs'; apply S; right; assumption|]. specialize (S s (or_introl eq_refl)).
  cbn [mapM]. replace (sl_stop s =? 0) with false by (symmetry; apply Z.eqb_neq; lia). unfold add_range at 1. rewrite R2.
  replace (sl_start s <? sl_stop s) with true by (symmetry; apply Z.ltb_lt; lia). replace (0 <=? rs_padding r) with true by (symmetry; apply Z.leb_le; lia).
  replace (sl_stop s - sl_start s <? e9) with true by (symmetry; apply Z.ltb_lt; lia). cbn [negb Z.ltb Z.compare bind]. rewrite E1. cbn [bind]. eexists. split; [reflexivity|].
  cbn [map rs_elems]. f_equal; [|assumption]. cbn [rs_empty set_autostep rs_elems]. unfold expand. rewrite R2. apply set_update_nil. rewrite zseq_range. apply arith_asc. lia.
Qed.

Theorem contiguous_shape : forall r rs, ascending (rs_elems r) -> rs_contiguous r = Ok rs ->
  concat (map rs_elems rs) = rs_elems r /\ Forall consecutive (map rs_elems rs) /\ StronglySorted gap (map rs_elems rs).
Proof.
  intros r rs A H. destruct (contiguous_spec r A) as [F [R O]].
  assert (E : map rs_elems rs = map expand (contiguous_slices r)).
  { clear F O. revert rs H. unfold rs_contiguous. induction (contiguous_slices r) as [|s ss IH]; intros rs H; [injection H as <-; reflexivity|]. inversion R as [|? ? [R1 R2] R3]; subst.
    cbn [mapM] in H. apply bind_ok in H as [r1 [H1 H2]]. apply bind_ok in H2 as [rs' [H2 H3]]. injection H3 as <-. cbn [map]. f_equal; [|apply IH; assumption].
    destruct (sl_stop s =? 0); [discriminate|]. unfold add_range in H1. destruct (sl_start s <? sl_stop s); [|discriminate]. destruct (0 <? sl_step s); [|discriminate]. destruct (0 <=? rs_padding r); [|discriminate].
    destruct (sl_stop s - sl_start s <? e9); [|discriminate]. cbn [negb] in H1. injection H1 as <-. cbn [rs_elems rs_empty set_autostep]. unfold expand. rewrite R2. apply set_update_nil. rewrite zseq_range. apply arith_asc. lia. }
  rewrite E. split; [rewrite <- flat_map_concat_map; assumption|].
  assert (X : forall s, In s (contiguous_slices r) -> expand s = zseq (sl_start s) (sl_stop s) /\ sl_start s < sl_stop s).
  { intros s Hs. rewrite Forall_forall in R. destruct (R s Hs) as [R1 R2]. split; [|assumption]. unfold expand. rewrite R2. apply zseq_range. }
  split.
  - apply Forall_forall. intros l Hl. apply in_map_iff in Hl as [s [<- Hs]]. destruct (X s Hs) as [-> L]. split.
    + intros Q. assert (I : In (sl_start s) (zseq (sl_start s) (sl_stop s))) by (apply zseq_In; lia). rewrite Q in I. contradiction.
    + intros x y z Hx Hz B. apply zseq_In in Hx, Hz. apply zseq_In. lia.
  - clear F E R A H. induction O as [|s ss O IH H]; [constructor|]. cbn [map]. constructor; [apply IH; intros s' Hs'; apply X; right; assumption|].
    apply Forall_forall. intros l Hl. apply in_map_iff in Hl as [s' [<- Hs']]. rewrite Forall_forall in H. specialize (H s' Hs'). unfold apart in H.
    destruct (X s (or_introl eq_refl)) as [-> L]. destruct (X s' (or_intror Hs')) as [-> L']. intros x y Hx Hy. apply zseq_In in Hx, Hy. lia.
Qed.

(** ** The threshold of folding *)
Definition folded_enough (a : Z) (s : pslice) : Prop := sl_step s = 1 \/ a * sl_step s <= sl_stop s - 1 - sl_start s.

Lemma flush_enough : forall a st m prng is out is', flush_prng st m prng is = (out, is') -> Forall (folded_enough a) out /\ (st = true -> is' = is).
Proof.
  intros a st m [[x y]|] is out is' H; cbn [flush_prng] in H; [destruct st|]; injection H as <- <-; split; auto; try discriminate; repeat constructor.
Qed.
Lemma units_enough : forall a l, Forall (folded_enough a) (map unit_slice l).
Proof. intros a l. apply Forall_forall. intros s Hs. apply in_map_iff in Hs as [x [<- _]]. left. reflexivity. Qed.

Lemma step_enough : forall a st sli out st', folded_step a st sli = (out, st') ->
  (forall s, st = Some s -> f_m s = 0 \/ f_i s = f_k s) -> Forall (folded_enough a) out /\ (f_m st' = 0 \/ f_i st' = f_k st').
Proof.
  intros a [[prng is m i k]|] [start stop sp] out st' H I; cbn [folded_step sl_start sl_stop] in H.
  - destruct (m =? 0) eqn:M0.
    + apply Z.eqb_eq in M0. destruct (start + 1 =? stop); cbn [negb] in H; injection H as <- <-; cbn; split; auto.
      constructor; [|constructor]. destruct prng; left; reflexivity.
    + destruct (m =? start - k) eqn:MK; cbn [negb orb] in H.
      * destruct (start + 1 =? stop); cbn [negb] in H; [injection H as <- <-; cbn; split; auto|].
        set (st := a * m <=? start - is) in *. destruct (flush_prng st m prng is) as [o is'] eqn:EF. destruct (flush_enough a _ _ _ _ _ _ EF) as [F1 F2].
        destruct st eqn:S; injection H as <- <-; cbn [f_m f_i f_k]; (split; [|auto]); apply Forall_app; (split; [assumption|]); [|apply units_enough].
        constructor; [|constructor]. right. cbn. apply Z.leb_le in S. rewrite (F2 eq_refl). lia.
      * set (st := a * m <=? k - is) in *. destruct (flush_prng st m prng is) as [o is'] eqn:EF. destruct (flush_enough a _ _ _ _ _ _ EF) as [F1 F2].
        assert (O : Forall (folded_enough a) (o ++ (if st then [{| sl_start := is'; sl_stop := k + 1; sl_step := m |}] else map unit_slice (py_range is' (k - m + 1) m) ++ (if negb (start + 1 =? stop) then [unit_slice k] else [])))).
        { apply Forall_app. split; [assumption|]. destruct st eqn:S.
          - constructor; [|constructor]. right. cbn. apply Z.leb_le in S. rewrite (F2 eq_refl). lia.
          - apply Forall_app. split; [apply units_enough|]. destruct (negb _); constructor; [left; reflexivity|constructor]. }
        destruct (start + 1 =? stop); [destruct st|]; injection H as <- <-; cbn [f_m f_i f_k]; split; auto.
  - destruct (start + 1 =? stop); injection H as <- <-; cbn; split; auto.
Qed.

Lemma loop_enough : forall a ss st, (forall s, st = Some s -> f_m s = 0 \/ f_i s = f_k s) -> Forall (folded_enough a) (folded_loop a ss st).
Proof.
  induction ss as [|s ss IH]; intros st I; cbn [folded_loop].
  - destruct st as [[prng is m i k]|]; [|constructor]. specialize (I _ eq_refl). cbn [folded_end f_m f_i f_k] in *. destruct (m =? 0) eqn:M0.
    + constructor; [|constructor]. destruct prng; left; reflexivity.
    + apply Z.eqb_neq in M0. destruct I as [I|I]; [contradiction|]. set (st := a * m <=? k - is) in *. destruct (flush_prng st m prng is) as [o is'] eqn:EF.
      destruct (flush_enough a _ _ _ _ _ _ EF) as [F1 F2]. apply Forall_app. split; [assumption|]. destruct st eqn:S; [|apply units_enough].
      constructor; [|constructor]. right. cbn. apply Z.leb_le in S. rewrite (F2 eq_refl). lia.
  - destruct (folded_step a st s) as [out st'] eqn:E. destruct (step_enough a st s out st' E I) as [O I']. apply Forall_app. split; [assumption|]. apply IH. intros s' Hs'. injection Hs' as <-. exact I'.
Qed.

Theorem threshold : forall r a s l, ascending (rs_elems r) -> rs_step r = Some a -> In s (slices r) -> sl_step s <> 1 -> listing s l -> a + 1 <= Z.of_nat (length l).
Proof.
  intros r a s l A S Hs N [L1 L2]. destruct (slice_bounds r s A Hs) as [_ [_ [P1 P2]]].
  assert (E : folded_enough a s).
  { unfold slices in Hs. rewrite S in Hs. destruct (e100 <=? a).
    - destruct (contiguous_spec r A) as [_ [R _]]. rewrite Forall_forall in R. left. apply R. assumption.
    - pose proof (loop_enough a (contiguous_slices r) None) as Q. rewrite Forall_forall in Q. apply Q; [discriminate|assumption]. }
  destruct E as [E|E]; [contradiction|]. destruct (Z.le_gt_cases (a + 1) 0) as [Z0|Z0]; [lia|].
  (* the a + 1 first members of the progression *)
  assert (I : incl (arith (sl_start s) (Z.to_nat (a + 1)) (sl_step s)) l).
  { intros x Hx. apply arith_In in Hx as [j [Hj ->]]. apply L2. exists (Z.of_nat j). split; [lia|]. split; [lia|]. nia. }
  pose proof (NoDup_incl_length) as NI. specialize (NI Z (arith (sl_start s) (Z.to_nat (a + 1)) (sl_step s)) l).
  assert (LA : length (arith (sl_start s) (Z.to_nat (a + 1)) (sl_step s)) = Z.to_nat (a + 1)) by (unfold arith; rewrite map_length, seq_length; reflexivity).
  rewrite LA in NI. assert (ND : NoDup (arith (sl_start s) (Z.to_nat (a + 1)) (sl_step s))).
  { pose proof (arith_asc (Z.to_nat (a + 1)) (sl_start s) (sl_step s) P2) as Q. revert Q. generalize (arith (sl_start s) (Z.to_nat (a + 1)) (sl_step s)). intros q Q. induction Q as [|x q Q IH H]; constructor; [|assumption].
    intros Y. rewrite Forall_forall in H. specialize (H x Y). lia. }
  specialize (NI ND I). lia.
Qed.

(** ** Set operations *)
Lemma asc_NoDup : forall l, ascending l -> NoDup l.
Proof. intros l H. induction H as [|x l H IH F]; constructor; [|assumption]. intros Q. rewrite Forall_forall in F. specialize (F x Q). lia. Qed.
Lemma set_mem_In : forall x l, set_mem x l = true <-> In x l.
Proof.
  intros. unfold set_mem. rewrite existsb_exists. split; [intros [y [H E]]; apply Z.eqb_eq in E; subst; assumption|]. intros H. exists x. split; [assumption|apply Z.eqb_refl].
Qed.
Lemma set_add_spec : forall x l, ascending l -> ascending (set_add x l) /\ forall y, In y (set_add x l) <-> y = x \/ In y l.
Proof.
  intros x l. induction l as [|z l IH]; intros A; cbn [set_add].
  - split; [repeat constructor|]. intros y. cbn. intuition auto.
  - inversion A as [|? ? A1 A2]; subst. destruct (x <? z) eqn:L.
    + apply Z.ltb_lt in L. split; [|intros y; cbn; intuition auto]. constructor; [assumption|]. constructor; [assumption|]. apply Forall_impl with (2 := A2). intros; lia.
    + apply Z.ltb_ge in L. destruct (x =? z) eqn:E.
      * apply Z.eqb_eq in E. subst z. split; [assumption|]. intros y. cbn. intuition auto.
      * apply Z.eqb_neq in E. destruct (IH A1) as [I1 I2]. split.
        -- constructor; [assumption|]. apply Forall_forall. intros y Hy. apply I2 in Hy as [->|Hy]; [lia|]. rewrite Forall_forall in A2. apply A2. assumption.
        -- intros y. cbn. rewrite I2. intuition auto.
Qed.
Lemma set_update_spec : forall xs l, ascending l -> ascending (set_update l xs) /\ forall y, In y (set_update l xs) <-> In y l \/ In y xs.
Proof.
  induction xs as [|x xs IH]; intros l A; [split; [assumption|]; intros y; cbn; intuition auto|]. unfold set_update. cbn [fold_left]. destruct (set_add_spec x l A) as [S1 S2].
  destruct (IH _ S1) as [I1 I2]. unfold set_update in I1, I2. split; [assumption|]. intros y. rewrite I2, S2. cbn. intuition auto.
Qed.
Lemma filter_spec : forall (p : Z -> bool) l, ascending l -> ascending (filter p l) /\ forall y, In y (filter p l) <-> In y l /\ p y = true.
Proof.
  intros p l A. split; [|intros y; apply filter_In]. induction A as [|x l A IH F]; [constructor|]. cbn [filter]. destruct (p x); [|assumption]. constructor; [assumption|].
  apply Forall_forall. intros y Hy. apply filter_In in Hy as [Hy _]. rewrite Forall_forall in F. apply F. assumption.
Qed.
Lemma negb_mem : forall x l, negb (set_mem x l) = true <-> ~ In x l.
Proof. intros. rewrite negb_true_iff, <- set_mem_In. destruct (set_mem x l); intuition congruence. Qed.
Lemma asc_ext : forall l l', ascending l -> ascending l' -> (forall x, In x l <-> In x l') -> l = l'.
Proof.
  induction l as [|x l IH]; intros l' A A' H.
  - destruct l' as [|y l']; [reflexivity|]. exfalso. apply (H y). left. reflexivity.
  - destruct l' as [|y l']; [exfalso; apply (H x); left; reflexivity|]. inversion A as [|? ? A1 A2]; subst. inversion A' as [|? ? A1' A2']; subst. rewrite Forall_forall in A2, A2'.
    assert (x = y).
    { destruct (proj1 (H x) (or_introl eq_refl)) as [E|E]; [auto|]. destruct (proj2 (H y) (or_introl eq_refl)) as [E'|E']; [auto|]. specialize (A2 _ E'). specialize (A2' _ E). lia. }
    subst y. f_equal. apply IH; [assumption|assumption|]. intros z. split; intros Hz.
    + destruct (proj1 (H z) (or_intror Hz)) as [->|Q]; [specialize (A2 _ Hz); lia|assumption].
    + destruct (proj2 (H z) (or_intror Hz)) as [->|Q]; [specialize (A2' _ Hz); lia|assumption].
Qed.
Lemma subset_spec : forall a b, rs_issubset a b = true <-> forall x, has a x -> has b x.
Proof. intros. unfold rs_issubset, has. rewrite forallb_forall. split; intros H x Hx; [apply set_mem_In|apply set_mem_In]; apply H; assumption. Qed.
Lemma eq_spec : forall a b, ascending (rs_elems a) -> ascending (rs_elems b) -> (rs_eq a b = true <-> forall x, has a x <-> has b x).
Proof.
  intros a b A B. unfold rs_eq. fold (rs_issubset a b). rewrite andb_true_iff, Nat.eqb_eq, subset_spec. unfold has. split.
  - intros [L S] x. split; [apply S|]. apply NoDup_length_incl; [apply asc_NoDup; assumption|lia|exact S].
  - intros H. assert (E : rs_elems a = rs_elems b) by (apply asc_ext; assumption). rewrite E. split; [reflexivity|auto].
Qed.
