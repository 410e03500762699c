(** Small differences between two witnesses (C89). *)
From Verif Require Import Py TokenModel SuffixModel IndexModel GraphModel AlignModel TableModel NearModel ExportModel
  CollateModel Lib GraphSpec TableSpec CollateSpec PairSpec PairProof CommonProof ChangeSpec.
From Coq Require Import QArith Sorted.
Open Scope list_scope.
Open Scope nat_scope.

Lemma layout_shift_r : forall P i j n m, length (layout i j n m P) <= S (length (layout i (S j) n m P)).
Proof. intros [|[x y] P] i j n m; cbn [layout]; rewrite ?app_length; cbn [length]; rewrite !gap_length; lia. Qed.
Lemma layout_shift_both : forall P i j n m, S i <= n -> S j <= m -> (forall x y, In (x, y) P -> S i <= x /\ S j <= y) ->
  length (layout i j n m P) <= S (length (layout (S i) (S j) n m P)).
Proof.
  intros [|[x y] P] i j n m A B H; cbn [layout]; rewrite ?app_length; cbn [length]; rewrite !gap_length; [lia|].
  destruct (H x y (or_introl eq_refl)). lia.
Qed.

Lemma edit_pairs : forall a b k, edits a b k -> forall i j, exists P,
  StronglySorted up P /\ (forall x y, In (x, y) P -> i <= x /\ j <= y /\ exists s, nth_error a (x - i) = Some s /\ nth_error b (y - j) = Some s) /\
  length a <= length P + k /\ length (layout i j (i + length a) (j + length b) P) <= length P + k.
Proof.
  induction 1 as [|s a b k E IH|s s' a b k E IH|s a b k E IH|s a b k E IH]; intros i j.
  - exists []. split; [constructor|]. split; [intros x y []|]. split; [cbn; lia|]. cbn [layout length]. rewrite gap_length. lia.
  - destruct (IH (S i) (S j)) as [P [ST [AG [LP LL]]]]. exists ((i, j) :: P). split; [|split; [|split]].
    + constructor; [assumption|]. apply Forall_forall. intros [x y] Q. apply AG in Q. unfold up. cbn [fst snd]. lia.
    + intros x y [Q|Q].
      * injection Q as <- <-. split; [lia|]. split; [lia|]. rewrite !Nat.sub_diag. exists s. split; reflexivity.
      * destruct (AG x y Q) as [X [Y [s' [A B]]]]. split; [lia|]. split; [lia|]. exists s'.
        replace (x - i) with (S (x - S i)) by lia. replace (y - j) with (S (y - S j)) by lia. split; assumption.
    + cbn [length]. lia.
    + cbn [layout length]. rewrite app_length, gap_length. cbn [length]. replace (i + S (length a)) with (S i + length a) by lia.
      replace (j + S (length b)) with (S j + length b) by lia. lia.
  - destruct (IH (S i) (S j)) as [P [ST [AG [LP LL]]]]. exists P. split; [assumption|]. split; [|split].
    + intros x y Q. destruct (AG x y Q) as [X [Y [s2 [A B]]]]. split; [lia|]. split; [lia|]. exists s2.
      replace (x - i) with (S (x - S i)) by lia. replace (y - j) with (S (y - S j)) by lia. split; assumption.
    + cbn [length]. lia.
    + pose proof (layout_shift_both P i j (S i + length a) (S j + length b) ltac:(lia) ltac:(lia)) as Q.
      assert (Q' : forall x y, In (x, y) P -> S i <= x /\ S j <= y) by (intros x y H; apply AG in H; lia). specialize (Q Q').
      cbn [length]. replace (i + S (length a)) with (S i + length a) by lia. replace (j + S (length b)) with (S j + length b) by lia. lia.
  - destruct (IH (S i) j) as [P [ST [AG [LP LL]]]]. exists P. split; [assumption|]. split; [|split].
    + intros x y Q. destruct (AG x y Q) as [X [Y [s2 [A B]]]]. split; [lia|]. split; [lia|]. exists s2. replace (x - i) with (S (x - S i)) by lia. split; assumption.
    + cbn [length]. lia.
    + pose proof (layout_shift P i j (S i + length a) (j + length b)). cbn [length]. replace (i + S (length a)) with (S i + length a) by lia. lia.
  - destruct (IH i (S j)) as [P [ST [AG [LP LL]]]]. exists P. split; [assumption|]. split; [|split].
    + intros x y Q. destruct (AG x y Q) as [X [Y [s2 [A B]]]]. split; [lia|]. split; [lia|]. exists s2. replace (y - j) with (S (y - S j)) by lia. split; assumption.
    + lia.
    + pose proof (layout_shift_r P i j (i + length a) (S j + length b)). cbn [length]. replace (j + S (length b)) with (S j + length b) by lia. lia.
Qed.

Lemma edit_agreeing : forall a b k, edits a b k -> exists P, agreeing a b P /\ length a <= length P + k /\
  length (layout 0 0 (length a) (length b) P) <= length P + k.
Proof.
  intros a b k H. destruct (edit_pairs a b k H 0 0) as [P [ST [AG [LP LL]]]]. exists P. split; [|split; assumption]. split; [exact ST|].
  intros i j Q. destruct (AG i j Q) as [_ [_ [s [A B]]]]. rewrite Nat.sub_0_r in A, B. eauto.
Qed.

Lemma pairs_few : forall a b P, agreeing a b P -> length P <= length a /\ length P <= length b.
Proof.
  intros a b P AG. destruct (agreeing_columns a b P AG) as [N1 [N2 N3]]. rewrite <- N3.
  assert (LE : forall (f : option nat * option nat -> bool), (forall c, paired P c = true -> f c = true) -> forall l, length (filter (paired P) l) <= length (filter f l)).
  { intros f F l. induction l as [|c l IH]; [reflexivity|]. cbn [filter]. destruct (paired P c) eqn:E; [rewrite (F c E); cbn [length]; lia|]. destruct (f c); cbn [length]; lia. }
  split.
  - rewrite <- N1 at 2. apply LE. intros c H. apply paired_some in H. tauto.
  - rewrite <- N2 at 2. apply LE. intros c H. apply paired_some in H. tauto.
Qed.

(** ** One replaced word *)
Lemma sorted_at : forall P i j, StronglySorted up P -> (forall x y, In (x, y) P -> i <= x /\ j <= y) ->
  forall k x y, nth_error P k = Some (x, y) -> i + k <= x /\ j + k <= y.
Proof.
  induction P as [|[x0 y0] P IH]; intros i j ST H k x y Q; [destruct k; discriminate|]. inversion ST as [|? ? ST1 ST2]; subst. rewrite Forall_forall in ST2.
  destruct (H x0 y0 (or_introl eq_refl)) as [X Y]. destruct k as [|k]; cbn [nth_error] in Q; [injection Q as <- <-; lia|].
  destruct (IH (S x0) (S y0) ST1) with (k := k) (x := x) (y := y); [|assumption|lia]. intros x' y' I. apply ST2 in I. unfold up in I. cbn [fst snd] in I. lia.
Qed.

Lemma sorted_room : forall n m P, StronglySorted up P -> (forall x y, In (x, y) P -> x < n /\ y < m) ->
  forall k x y, nth_error P k = Some (x, y) -> x + (length P - k) <= n /\ y + (length P - k) <= m.
Proof.
  intros n m. induction P as [|[x0 y0] P IH]; intros ST H k x y Q; [destruct k; discriminate|]. inversion ST as [|? ? ST1 ST2]; subst. rewrite Forall_forall in ST2.
  specialize (IH ST1 (fun x y I => H x y (or_intror I))). destruct k as [|k]; cbn [nth_error length] in *.
  - injection Q as <- <-. destruct P as [|[x1 y1] P]; [destruct (H x0 y0 (or_introl eq_refl)); cbn; lia|].
    destruct (IH 0 x1 y1 eq_refl) as [A B]. assert (U : up (x0, y0) (x1, y1)) by (apply ST2; left; reflexivity). unfold up in U. cbn [fst snd length] in *. lia.
  - specialize (IH k x y Q). lia.
Qed.

(** All pairs: the positions are paired one by one. *)
Lemma all_paired : forall a b P, agreeing a b P -> length P = length a -> length a = length b -> forall k, k < length a -> In (k, k) P.
Proof.
  intros a b P AG L E k Hk. pose proof AG as [ST _]. pose proof (agreeing_bounds a b P AG) as BD.
  destruct (nth_error P k) as [[x y]|] eqn:Q; [|apply nth_error_None in Q; lia].
  destruct (sorted_at P 0 0 ST ltac:(intros; lia) k x y Q) as [A B].
  destruct (sorted_room (length a) (length b) P ST) with (k := k) (x := x) (y := y) as [C D]; [intros x' y' I; apply BD in I; lia|assumption|].
  assert (x = k) by lia. assert (y = k) by lia. subst. apply nth_error_In in Q. assumption.
Qed.

(** Where no cell is empty the texts are side by side. *)
Definition beside (i j k : nat) : option nat * option nat := (Some (i + k), Some (j + k)).
Definition full (c : option nat * option nat) : Prop := is_some (fst c) = true /\ is_some (snd c) = true.

Lemma full_gap : forall i x j y, (forall c, In c (gap i x j y) -> full c) -> x - i = y - j /\ gap i x j y = map (beside i j) (seq 0 (x - i)).
Proof.
  intros i x j y F. assert (E : x - i = y - j).
  { destruct (Nat.lt_trichotomy (x - i) (y - j)) as [L|[|L]]; [|assumption|]; exfalso.
    - assert (I : In (x - i) (seq 0 (Nat.max (x - i) (y - j)))) by (apply in_seq; lia).
      apply (in_map (fun k => (if i + k <? x then Some (i + k) else None, if j + k <? y then Some (j + k) else None))) in I.
      destruct (F _ I) as [A _]. cbn [fst] in A. replace (i + (x - i) <? x) with false in A by (symmetry; apply Nat.ltb_ge; lia). discriminate.
    - assert (I : In (y - j) (seq 0 (Nat.max (x - i) (y - j)))) by (apply in_seq; lia).
      apply (in_map (fun k => (if i + k <? x then Some (i + k) else None, if j + k <? y then Some (j + k) else None))) in I.
      destruct (F _ I) as [_ A]. cbn [snd] in A. replace (j + (y - j) <? y) with false in A by (symmetry; apply Nat.ltb_ge; lia). discriminate. }
  split; [assumption|]. unfold gap. replace (Nat.max (x - i) (y - j)) with (x - i) by lia. apply map_ext_in. intros k H. apply in_seq in H.
  replace (i + k <? x) with true by (symmetry; apply Nat.ltb_lt; lia). replace (j + k <? y) with true by (symmetry; apply Nat.ltb_lt; lia). reflexivity.
Qed.

Lemma full_layout : forall P i j n m, StronglySorted up P -> (forall x y, In (x, y) P -> i <= x < n /\ j <= y) ->
  (forall c, In c (layout i j n m P) -> full c) -> layout i j n m P = map (beside i j) (seq 0 (n - i)).
Proof.
  induction P as [|[x y] P IH]; intros i j n m ST B F; cbn [layout] in *; [apply full_gap; assumption|].
  destruct (full_gap i x j y) as [E ->]; [intros c H; apply F; apply in_or_app; left; assumption|].
  inversion ST as [|? ? ST1 ST2]; subst. rewrite Forall_forall in ST2. destruct (B x y (or_introl eq_refl)) as [X Y].
  rewrite IH; [|assumption| |].
  - replace (n - i) with ((x - i) + S (n - S x)) by lia. rewrite seq_app, map_app. f_equal. cbn [Nat.add seq map]. f_equal.
    + unfold beside. f_equal; f_equal; lia.
    + rewrite <- seq_shift, map_map. rewrite <- (map_map S). rewrite !seq_shift. assert (G : forall d s, map (beside (S x) (S y)) (seq s d) = map (beside i j) (seq (s + S (x - i)) d)).
      { induction d as [|d IHd]; intros s; [reflexivity|]. cbn [seq map]. f_equal; [unfold beside; f_equal; f_equal; lia|]. apply (IHd (S s)). }
      exact (G _ 0).
  - intros x' y' I. assert (U := ST2 _ I). destruct (B x' y' (or_intror I)). unfold up in U. cbn [fst snd] in U. lia.
  - intros c I. apply F. apply in_or_app. right. right. assumption.
Qed.

Lemma one_replaced : forall p x y s P, let a := p ++ x :: s in let b := p ++ y :: s in x <> y -> agreeing a b P ->
  (forall P', agreeing a b P' -> (balance (length a) (length b) P' <= balance (length a) (length b) P)%Z) ->
  layout 0 0 (length a) (length b) P = map (beside 0 0) (seq 0 (length a)) /\
  forall k, k < length a -> (In (k, k) P <-> k <> length p).
Proof.
  intros p x y s P a b N AG BEST. assert (LE : length a = length b) by (unfold a, b; rewrite !app_length; reflexivity).
  assert (ED : edits a b 1).
  { unfold a, b. clear. induction p as [|z p IH]; cbn [app]; [|constructor; assumption]. constructor. induction s; constructor; assumption. }
  destruct (edit_agreeing a b 1 ED) as [P' [AG' [L1 L2]]]. pose proof (BEST P' AG') as Q. unfold balance in Q.
  destruct (agreeing_columns a b P AG) as [N1 [N2 N3]]. destruct (pairs_few a b P AG) as [F1 F2].
  assert (Lp : length p < length a) by (unfold a; rewrite app_length; cbn [length]; lia).
  assert (NP : ~ In (length p, length p) P).
  { intros I. destruct AG as [_ AG]. destruct (AG _ _ I) as [r [A B]]. unfold a, b in A, B. rewrite nth_error_app2, Nat.sub_diag in A, B by lia. cbn in A, B. congruence. }
  assert (LP : length P < length a).
  { destruct (Nat.eq_dec (length P) (length a)) as [E|]; [|lia]. exfalso. apply NP. apply (all_paired a b P AG E LE _ Lp). }
  set (C := layout 0 0 (length a) (length b) P) in *.
  pose proof (filter_le (fun c => is_some (fst c)) C) as G1. assert (EC : length C = length a) by lia. assert (EP : S (length P) = length a) by lia.
  assert (FC : C = map (beside 0 0) (seq 0 (length a))).
  { unfold C. rewrite (full_layout P 0 0 (length a) (length b)); [rewrite Nat.sub_0_r; reflexivity|apply AG| |].
    - intros u v I. apply (agreeing_bounds a b P AG) in I. lia.
    - fold C. intros c Hc. split; [apply (filter_full (fun c => is_some (fst c)) C); [lia|assumption]|apply (filter_full (fun c => is_some (snd c)) C); [lia|assumption]]. }
  split; [assumption|]. intros k Hk. split; [intros I ->; contradiction|]. intros Nk.
  set (h := fun c : option nat * option nat => match fst c with Some q => negb (q =? length p) | None => false end).
  assert (IMP : forall c, In c C -> paired P c = true -> h c = true).
  { intros c Hc H. rewrite FC in Hc. apply in_map_iff in Hc as [q [<- _]]. unfold beside in *. cbn [Nat.add] in *. unfold h. cbn [fst].
    apply paired_iff in H as [u [v [E I]]]. injection E as <- <-. apply negb_true_iff, Nat.eqb_neq. intros ->. contradiction. }
  assert (CH : length (filter h C) <= length P).
  { assert (SP : seq 0 (length a) = seq 0 (length p) ++ length p :: seq (S (length p)) (length a - S (length p))).
    { replace (length a) with (length p + S (length a - S (length p))) at 1 by lia. rewrite seq_app. reflexivity. }
    rewrite FC, SP, map_app, filter_app, app_length. cbn [map filter]. replace (h (beside 0 0 (length p))) with false by (unfold h, beside; cbn [fst Nat.add]; rewrite Nat.eqb_refl; reflexivity).
    pose proof (filter_le h (map (beside 0 0) (seq 0 (length p)))) as Z1. pose proof (filter_le h (map (beside 0 0) (seq (S (length p)) (length a - S (length p))))) as Z2.
    rewrite map_length, seq_length in Z1, Z2. lia. }
  assert (SAME : forall c, In c C -> h c = paired P c).
  { clear - IMP CH N3. rewrite <- N3 in CH. clear N3. induction C as [|c C IH]; intros d Hd; [destruct Hd|].
    assert (LE2 : length (filter (paired P) C) <= length (filter h C)).
    { clear - IMP. induction C as [|e C IH]; [reflexivity|]. cbn [filter]. destruct (paired P e) eqn:E.
      - rewrite (IMP e (or_intror (or_introl eq_refl)) E). cbn [length]. apply le_n_S. apply IH. intros f [->|F]; [apply IMP; left; reflexivity|apply IMP; right; right; assumption].
      - assert (length (filter (paired P) C) <= length (filter h C)) by (apply IH; intros f [->|F]; [apply IMP; left; reflexivity|apply IMP; right; right; assumption]).
        destruct (h e); cbn [length]; lia. }
    cbn [filter] in CH. pose proof (IMP c (or_introl eq_refl)) as Ic. destruct (paired P c) eqn:E.
    - rewrite (Ic eq_refl) in CH. cbn [length] in CH. destruct Hd as [<-|Hd]; [rewrite E; auto|]. apply IH; [intros; apply IMP; [right|]; assumption|lia|assumption].
    - destruct (h c) eqn:Hc; cbn [length] in CH; [lia|]. destruct Hd as [<-|Hd]; [congruence|]. apply IH; [intros; apply IMP; [right|]; assumption|lia|assumption]. }
  assert (Ik : In (beside 0 0 k) C) by (rewrite FC; apply in_map; apply in_seq; lia).
  pose proof (SAME _ Ik) as Z. unfold h, beside in Z. cbn [fst Nat.add] in Z. apply Nat.eqb_neq in Nk. rewrite Nk in Z. cbn [negb] in Z. symmetry in Z.
  apply paired_iff in Z as [u [v [E I]]]. injection E as <- <-. assumption.
Qed.

Section Changes.
  Variables (cc : cclass) (topo : graph -> res (list vid)) (ratio : str -> str -> Q).
  Hypothesis TO : topo_ok topo.

  Theorem few_edits : forall w1 w2 o t k, good_sigla [w1; w2] -> o_segmentation o = false -> o_near o = false -> o_filter o = None ->
    no_doublets (readings w2) -> edits (readings w1) (readings w2) k -> collate cc topo ratio [w1; w2] o = Ok (OTable t) ->
    length (filter c_variant (t_columns t)) <= 2 * k.
  Proof.
    intros w1 w2 o t k G Hs Hn Hf ND ED H. destruct (two_witnesses cc topo ratio TO w1 w2 o t G Hs Hn H) as [P [AG [[_ FV] [SB [OPT _]]]]].
    specialize (OPT Hf ND). destruct (edit_agreeing _ _ _ ED) as [P' [AG' [L1 L2]]]. pose proof (OPT P' AG') as Q.
    assert (LR1 : length (readings w1) = length (w_toks w1)) by apply map_length. assert (LR2 : length (readings w2) = length (w_toks w2)) by apply map_length.
    rewrite LR1, LR2 in *. unfold balance in Q.
    destruct (pairs_few _ _ P AG) as [F1 _]. rewrite LR1 in F1.
    assert (EQ : length (filter (fun col => negb (c_variant col)) (t_columns t)) = length P).
    { pose proof (filter_negb c_variant (t_columns t)) as S1. apply Forall2_len in FV. rewrite SB in Q. unfold balance in SB. unfold table_score in SB. lia. }
    unfold table_score in Q. lia.
  Qed.

  Theorem one_change : forall w1 w2 o t p x y s, good_sigla [w1; w2] -> o_segmentation o = false -> o_near o = false -> o_filter o = None ->
    no_doublets (readings w2) -> readings w1 = p ++ x :: s -> readings w2 = p ++ y :: s -> x <> y -> collate cc topo ratio [w1; w2] o = Ok (OTable t) ->
    length (t_columns t) = length (w_toks w1) /\
    (forall k col, nth_error (t_columns t) k = Some col -> (c_variant col = true <-> k = length p)) /\
    exists c1 c2, t_rows t = [{| r_header := w_sigil w1; r_cells := c1 |}; {| r_header := w_sigil w2; r_cells := c2 |}] /\
      Forall2 (shows w1) (map Some (seq 0 (length (w_toks w1)))) c1 /\ Forall2 (shows w2) (map Some (seq 0 (length (w_toks w2)))) c2.
  Proof.
    intros w1 w2 o t p x y s G Hs Hn Hf ND R1 R2 N H. destruct (two_witnesses cc topo ratio TO w1 w2 o t G Hs Hn H) as [P [AG [[[c1 [c2 [TR [F1 F2]]]] FV] [SB [OPT _]]]]].
    specialize (OPT Hf ND). rewrite SB in OPT.
    assert (LR1 : length (readings w1) = length (w_toks w1)) by apply map_length. assert (LR2 : length (readings w2) = length (w_toks w2)) by apply map_length.
    assert (LE : length (w_toks w1) = length (w_toks w2)) by (rewrite <- LR1, <- LR2, R1, R2, !app_length; reflexivity).
    rewrite <- LR1, <- LR2 in OPT. rewrite R1, R2 in OPT, AG. destruct (one_replaced p x y s P N AG OPT) as [EL IP].
    rewrite <- R1, <- R2, LR1, LR2 in EL. rewrite <- R1, LR1 in IP. rewrite EL in F1, F2, FV.
    pose proof (Forall2_len _ _ _ FV) as LC. rewrite map_length, seq_length in LC. split; [auto|]. split.
    - intros k col Q. destruct (Forall2_at _ _ _ _ _ FV Q) as [c [Q1 Q2]].
      assert (Lk : k < length (w_toks w1)) by (rewrite LC; apply nth_error_Some; congruence).
      rewrite nth_error_map, (nth_error_nth' _ 0), seq_nth in Q1 by (rewrite ?seq_length; assumption). cbn [option_map Nat.add] in Q1. injection Q1 as <-.
      unfold beside in Q2. cbn [Nat.add] in Q2. specialize (IP k Lk).
      assert (Z : c_variant col = false <-> k <> length p).
      { rewrite Q2, <- IP. split; [intros [u [v [E I]]]; injection E as <- <-; assumption|eauto]. }
      destruct (c_variant col) eqn:V; split; intros W; try reflexivity; try discriminate.
      + destruct (Nat.eq_dec k (length p)) as [|D]; [assumption|]. apply Z in D. discriminate D.
      + exfalso. apply (proj1 Z eq_refl). assumption.
    - exists c1, c2. split; [assumption|]. rewrite !map_map in F1, F2. split; [exact F1|]. rewrite <- LE. exact F2.
  Qed.
End Changes.
