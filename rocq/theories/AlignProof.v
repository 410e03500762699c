(** Proofs about the alignment table (fill_table, score_iter, align_matching_tokens). *)
From Verif Require Import Py Lib TokenModel SuffixModel IndexModel GraphModel AlignModel.

Lemma coord_eqb_ok : forall a b, coord_eqb a b = true <-> a = b.
Proof.
  intros [a1 a2] [b1 b2]. unfold coord_eqb. simpl. rewrite andb_true_iff, !Z.eqb_eq.
  split; [intros [-> ->]; reflexivity | intros H; injection H; auto].
Qed.

(** ** The cells of the table *)
Definition cell_at (cells : list (list score)) (y x : nat) : option score :=
  match nth_error cells y with Some r => nth_error r x | None => None end.

Lemma first_row_length : forall n x p, length (first_row x n p) = n.
Proof. induction n; simpl; intros; auto. Qed.
Lemma fill_cells_length : forall m y ups x ul left, length (fill_cells m y x ul left ups) = length ups.
Proof. induction ups; simpl; intros; auto. Qed.
Lemma next_row_length : forall m y prev, length (next_row m y prev) = length prev.
Proof. intros. destruct prev; simpl; auto. f_equal. apply fill_cells_length. Qed.
Lemma more_rows_length : forall m n y prev, length (more_rows m y n prev) = n.
Proof. induction n; simpl; intros; auto. Qed.

Lemma first_row_nth : forall n x p i s, nth_error (p :: first_row x n p) i = Some s ->
  i < n -> nth_error (p :: first_row x n p) (S i) = Some (sc_gap (x + i) 0 s).
Proof.
  induction n; intros x p i s H L; [lia|]. destruct i as [|i].
  - simpl in H. injection H as <-. simpl. rewrite Nat.add_0_r. reflexivity.
  - simpl in H. simpl first_row at 1. 
    change (nth_error (p :: sc_gap x 0 p :: first_row (S x) n (sc_gap x 0 p)) (S (S i)))
      with (nth_error (sc_gap x 0 p :: first_row (S x) n (sc_gap x 0 p)) (S i)).
    rewrite (IHn (S x) (sc_gap x 0 p) i s); [|exact H|lia]. f_equal. f_equal. lia.
Qed.

Lemma fill_cells_nth : forall m y ups x ul left i s u v,
  nth_error (left :: fill_cells m y x ul left ups) i = Some s ->
  nth_error (ul :: ups) i = Some u -> nth_error (ul :: ups) (S i) = Some v ->
  nth_error (left :: fill_cells m y x ul left ups) (S i) =
  Some (max3 (sc_score m (x + i) y u) (sc_gap (x + i) y s) (from_upper m (x + i) y v)).
Proof.
  induction ups as [|up ups IH]; intros x ul left i s u v H1 H2 H3.
  - simpl in H3. destruct i; discriminate.
  - destruct i as [|i].
    + simpl in *. injection H1 as <-. injection H2 as <-. injection H3 as <-.
      rewrite Nat.add_0_r. reflexivity.
    + set (c := max3 (sc_score m x y ul) (sc_gap x y left) (from_upper m x y up)).
      change (nth_error (left :: fill_cells m y x ul left (up :: ups)) (S (S i)))
        with (nth_error (c :: fill_cells m y (S x) up c ups) (S i)).
      rewrite (IH (S x) up c i s u v); auto. replace (S x + i) with (x + S i) by lia. reflexivity.
Qed.

Lemma more_rows_nth : forall m n y prev i r, nth_error (prev :: more_rows m y n prev) i = Some r ->
  i < n -> nth_error (prev :: more_rows m y n prev) (S i) = Some (next_row m (y + i) r).
Proof.
  induction n; intros y prev i r H L; [lia|]. destruct i as [|i].
  - simpl in H. injection H as <-. simpl. rewrite Nat.add_0_r. reflexivity.
  - change (nth_error (prev :: more_rows m y (S n) prev) (S (S i)))
      with (nth_error (next_row m y prev :: more_rows m (S y) n (next_row m y prev)) (S i)).
    rewrite (IHn (S y) _ i r); [|exact H|lia]. f_equal. f_equal. lia.
Qed.

Section Filled.
  Variables (m : cube) (cols rows : nat).
  Hypothesis C1 : 1 <= cols.
  Let cells := fill_table m cols rows.

  Lemma fill_table_rows : length cells = S rows.
  Proof. unfold cells, fill_table. simpl. rewrite more_rows_length. reflexivity. Qed.

  Lemma fill_row_length : forall y r, nth_error cells y = Some r -> length r = cols.
  Proof.
    unfold cells, fill_table.
    set (r0 := score0 :: first_row 1 (cols - 1) score0).
    assert (L0 : length r0 = cols) by (unfold r0; simpl; rewrite first_row_length; lia).
    induction y as [|y IH]; intros r H.
    - simpl in H. injection H as <-. assumption.
    - destruct (nth_error (r0 :: more_rows m 1 rows r0) y) as [r'|] eqn:E.
      + assert (y < rows). { assert (S y < length (r0 :: more_rows m 1 rows r0)) by (apply nth_error_Some; congruence).
          simpl in H0. rewrite more_rows_length in H0. lia. }
        rewrite (more_rows_nth _ _ _ _ _ _ E) in H by assumption. injection H as <-.
        rewrite next_row_length. apply IH. reflexivity.
      + apply nth_error_None in E. assert (nth_error (r0 :: more_rows m 1 rows r0) (S y) = None).
        { apply nth_error_None. lia. } congruence.
  Qed.

  Lemma cell_ex : forall y x, y <= rows -> x < cols -> exists s, cell_at cells y x = Some s.
  Proof.
    intros. unfold cell_at. destruct (nth_error_lt_ex cells y) as [r Hr].
    - rewrite fill_table_rows. lia.
    - rewrite Hr. apply nth_error_lt_ex. rewrite (fill_row_length y r Hr). assumption.
  Qed.

  Lemma cell_00 : cell_at cells 0 0 = Some score0.
  Proof. reflexivity. Qed.

  Lemma cell_0S : forall x s, S x < cols -> cell_at cells 0 x = Some s ->
    cell_at cells 0 (S x) = Some (sc_gap (S x) 0 s).
  Proof.
    intros x s L H. unfold cell_at, cells, fill_table in *. cbn [nth_error] in H. 
    exact (first_row_nth (cols - 1) 1 score0 x s H ltac:(lia)).
  Qed.

  Lemma cell_S0 : forall y s, S y <= rows -> cell_at cells y 0 = Some s ->
    cell_at cells (S y) 0 = Some (sc_gap 0 (S y) s).
  Proof.
    intros y s L H. unfold cell_at, cells, fill_table in *.
    set (r0 := score0 :: first_row 1 (cols - 1) score0) in *.
    destruct (nth_error (r0 :: more_rows m 1 rows r0) y) as [r|] eqn:E; [|discriminate].
    rewrite (more_rows_nth _ _ _ _ _ _ E) by lia.
    destruct r as [|p0 ps]; [discriminate|]. simpl in *. injection H as <-. reflexivity.
  Qed.

  Lemma cell_SS : forall y x ul left up, S y <= rows -> S x < cols ->
    cell_at cells y x = Some ul -> cell_at cells (S y) x = Some left -> cell_at cells y (S x) = Some up ->
    cell_at cells (S y) (S x) =
    Some (max3 (sc_score m (S x) (S y) ul) (sc_gap (S x) (S y) left) (from_upper m (S x) (S y) up)).
  Proof.
    intros y x ul left up L1 L2 H1 H2 H3. unfold cell_at, cells, fill_table in *.
    set (r0 := score0 :: first_row 1 (cols - 1) score0) in *.
    destruct (nth_error (r0 :: more_rows m 1 rows r0) y) as [r|] eqn:E; [|discriminate].
    rewrite (more_rows_nth _ _ _ _ _ _ E) in * by lia.
    destruct r as [|p0 ps]; [destruct x; discriminate|].
    unfold next_row in *. apply (fill_cells_nth m (1 + y) ps 1 p0 (sc_gap 0 (1 + y) p0) x left ul up); auto.
  Qed.

  (** Every cell other than the origin points to a neighbour, and a match cell is a
      match of the cube and comes from the row above. *)
  Definition parent_ok (s : score) : Prop :=
    (s_px s <= s_x s /\ s_py s <= s_y s /\ s_x s + s_y s = S (s_px s + s_py s) \/
     s_x s = S (s_px s) /\ s_y s = S (s_py s)) /\
    (s_type s = SMatch ->
       s_y s = S (s_py s) /\ has_match m (Z.of_nat (s_y s) - 1) (Z.of_nat (s_x s) - 1) = true).

  Lemma max3_cases : forall a b c, max3 a b c = a \/ max3 a b c = b \/ max3 a b c = c.
  Proof.
    intros. unfold max3. destruct (s_g a <? s_g b)%Z;
    match goal with |- context [if ?x then _ else _] => destruct x end; auto.
  Qed.

  Lemma sc_gap_type : forall x y p, x <> s_x p \/ y = s_y p \/ x = s_x p -> s_type (sc_gap x y p) <> SMatch.
  Proof.
    intros. simpl. unfold determine_type. destruct (x =? s_x p); [discriminate|].
    destruct (y =? s_y p); discriminate.
  Qed.

  Lemma cell_pos : forall y x s, cell_at cells y x = Some s -> s_x s = x /\ s_y s = y.
  Proof.
    assert (G : forall n y x s, y + x <= n -> cell_at cells y x = Some s -> s_x s = x /\ s_y s = y).
    { induction n; intros y x s Ln H.
      - assert (y = 0) by lia. assert (x = 0) by lia. subst. rewrite cell_00 in H. injection H as <-. auto.
      - assert (Ly : y <= rows).
        { unfold cell_at in H. destruct (nth_error cells y) eqn:E; [|discriminate].
          assert (y < length cells) by (apply nth_error_Some; congruence). rewrite fill_table_rows in H0. lia. }
        assert (Lx : x < cols).
        { unfold cell_at in H. destruct (nth_error cells y) eqn:E; [|discriminate].
          rewrite <- (fill_row_length y l E). apply nth_error_Some. congruence. }
        destruct y as [|y], x as [|x].
        + rewrite cell_00 in H. injection H as <-. auto.
        + destruct (cell_ex 0 x) as [s' Hs']; try lia. rewrite (cell_0S x s') in H by (auto; lia).
          injection H as <-. auto.
        + destruct (cell_ex y 0) as [s' Hs']; try lia. rewrite (cell_S0 y s') in H by (auto; lia).
          injection H as <-. auto.
        + destruct (cell_ex y x) as [s1 H1]; try lia. destruct (cell_ex (S y) x) as [s2 H2]; try lia.
          destruct (cell_ex y (S x)) as [s3 H3]; try lia.
          rewrite (cell_SS y x s1 s2 s3) in H by (auto; lia). injection H as <-.
          destruct (max3_cases (sc_score m (S x) (S y) s1) (sc_gap (S x) (S y) s2) (from_upper m (S x) (S y) s3)) as [E|[E|E]];
            rewrite E.
          * unfold sc_score. destruct (has_match _ _ _); auto.
          * auto.
          * unfold from_upper, sc_score. destruct (has_match _ _ _); [destruct (has_match _ _ _)|]; auto. }
    intros. apply (G (y + x)); auto.
  Qed.

  Lemma cell_bounds : forall y x s, cell_at cells y x = Some s -> y <= rows /\ x < cols.
  Proof.
    intros y x s H. unfold cell_at in H. destruct (nth_error cells y) eqn:E; [|discriminate]. split.
    - assert (y < length cells) by (apply nth_error_Some; congruence). rewrite fill_table_rows in H0. lia.
    - rewrite <- (fill_row_length y l E). apply nth_error_Some. congruence.
  Qed.

  Lemma sc_score_parent : forall x y p, S (s_y p) = y -> (x = s_x p \/ x = S (s_x p)) -> parent_ok (sc_score m x y p).
  Proof.
    intros x y p Hy Hx. unfold parent_ok, sc_score. destruct (has_match m (Z.of_nat y - 1) (Z.of_nat x - 1)) eqn:E; simpl.
    - split; [lia|]. auto.
    - split; [lia|]. discriminate.
  Qed.

  Lemma sc_gap_parent : forall x y p, (S (s_y p) = y /\ x = s_x p \/ s_y p = y /\ x = S (s_x p)) -> parent_ok (sc_gap x y p).
  Proof.
    intros x y p H. split; [simpl; lia|]. intros C. exfalso. revert C. apply sc_gap_type. lia.
  Qed.

  Lemma cell_parent : forall y x s, cell_at cells y x = Some s -> (y <> 0 \/ x <> 0) -> parent_ok s.
  Proof.
    intros y x s H N. destruct (cell_bounds y x s H) as [Ly Lx].
    destruct y as [|y], x as [|x]; [lia| | |].
    - destruct (cell_ex 0 x) as [s' Hs']; try lia. rewrite (cell_0S x s') in H by (auto; lia).
      injection H as <-. destruct (cell_pos _ _ _ Hs'). apply sc_gap_parent. lia.
    - destruct (cell_ex y 0) as [s' Hs']; try lia. rewrite (cell_S0 y s') in H by (auto; lia).
      injection H as <-. destruct (cell_pos _ _ _ Hs'). apply sc_gap_parent. lia.
    - destruct (cell_ex y x) as [s1 H1]; try lia. destruct (cell_ex (S y) x) as [s2 H2]; try lia.
      destruct (cell_ex y (S x)) as [s3 H3]; try lia.
      rewrite (cell_SS y x s1 s2 s3) in H by (auto; lia). injection H as <-.
      destruct (cell_pos _ _ _ H1), (cell_pos _ _ _ H2), (cell_pos _ _ _ H3).
      destruct (max3_cases (sc_score m (S x) (S y) s1) (sc_gap (S x) (S y) s2) (from_upper m (S x) (S y) s3)) as [E|[E|E]];
        rewrite E.
      + apply sc_score_parent; lia.
      + apply sc_gap_parent; lia.
      + unfold from_upper. destruct (has_match _ _ _).
        * apply sc_score_parent; lia.
        * apply sc_gap_parent; lia.
  Qed.

  (** The traceback: from (x, y) back to the origin. *)
  Inductive trace : nat -> nat -> list score -> Prop :=
  | tr_nil : trace 0 0 []
  | tr_cons : forall x y s l, (x <> 0 \/ y <> 0) -> cell_at cells y x = Some s -> trace (s_px s) (s_py s) l ->
      trace x y (s :: l).

  Lemma score_iter_trace : forall fuel x y, x + y <= fuel -> y <= rows -> x < cols ->
    exists l, score_iter fuel cells x y = Ok l /\ trace x y l.
  Proof.
    induction fuel; intros x y L Ly Lx.
    - assert (x = 0) by lia. assert (y = 0) by lia. subst. exists []. split; [reflexivity|constructor].
    - cbn [score_iter]. destruct ((x =? 0) && (y =? 0)) eqn:E.
      + apply andb_true_iff in E as [E1 E2]. apply Nat.eqb_eq in E1, E2. subst.
        exists []. split; [reflexivity|constructor].
      + assert (N : x <> 0 \/ y <> 0).
        { apply andb_false_iff in E as [E|E]; apply Nat.eqb_neq in E; auto. }
        destruct (cell_ex y x Ly Lx) as [s Hs]. pose proof Hs as Hs'. unfold cell_at in Hs.
        destruct (nth_error cells y) as [row|] eqn:Er; [|discriminate].
        unfold aget. rewrite Er. cbn [bind]. rewrite Hs. cbn [bind].
        destruct (cell_pos y x s Hs') as [P1 P2].
        destruct (cell_parent y x s Hs') as [P3 _]; [lia|].
        destruct (IHfuel (s_px s) (s_py s)) as [l [E1 E2]]; try lia.
        rewrite E1. simpl. exists (s :: l). split; auto. econstructor; eauto.
  Qed.

  (** Matches met on the traceback, in order. *)
  Definition is_match (s : score) : bool := match s_type s with SMatch => true | _ => false end.

  Lemma trace_bound : forall x y l, trace x y l -> forall s, In s l -> s_x s <= x /\ s_y s <= y.
  Proof.
    induction 1; intros s' Hs; [contradiction|]. destruct (cell_pos y x s H0) as [P1 P2].
    destruct Hs as [<-|Hs]; [lia|]. apply IHtrace in Hs.
    destruct (cell_parent y x s H0) as [P3 _]; lia.
  Qed.

  Lemma trace_sorted : forall x y l, trace x y l ->
    StronglySorted (fun a b => s_y b < s_y a /\ s_x b <= s_x a) (filter is_match l).
  Proof.
    induction 1; simpl; [constructor|]. destruct (is_match s) eqn:E; auto.
    constructor; auto. rewrite Forall_forall. intros b Hb. apply filter_In in Hb as [Hb _].
    apply (trace_bound _ _ _ H1) in Hb. destruct (cell_parent y x s H0) as [P3 P4]; [lia|].
    unfold is_match in E. destruct (s_type s); try discriminate.
    destruct (P4 eq_refl) as [P5 _]. lia.
  Qed.

  Lemma trace_match : forall x y l s, trace x y l -> In s l -> is_match s = true ->
    has_match m (Z.of_nat (s_y s) - 1) (Z.of_nat (s_x s) - 1) = true /\ 1 <= s_y s <= rows /\ s_x s < cols.
  Proof.
    induction 1; intros Hs E; [contradiction|]. destruct Hs as [<-|Hs]; [|auto].
    destruct (cell_pos y x s0 H0) as [Q1 Q2]. destruct (cell_bounds y x s0 H0) as [Q3 Q4].
    destruct (cell_parent y x s0 H0) as [_ P4]; [lia|].
    unfold is_match in E. destruct (s_type s0); try discriminate.
    destruct (P4 eq_refl) as [P5 P6]. split; auto. lia.
  Qed.
End Filled.

(** ** Aligning along the traceback *)
Lemma align_fold : forall m l al0 us0,
  (forall s, In s l -> is_match s = true -> has_match m (Z.of_nat (s_y s) - 1) (Z.of_nat (s_x s) - 1) = true) ->
  (forall p v, dget Nat.eqb p al0 = Some v -> In v us0) ->
  (forall p1 p2 v, dget Nat.eqb p1 al0 = Some v -> dget Nat.eqb p2 al0 = Some v -> p1 = p2) ->
  exists al us, foldM (align_step m) l (al0, us0) = Ok (al, us) /\
    (forall p1 p2 v, dget Nat.eqb p1 al = Some v -> dget Nat.eqb p2 al = Some v -> p1 = p2) /\
    (forall p v, dget Nat.eqb p al = Some v -> dget Nat.eqb p al0 = Some v \/
       exists s t, In s l /\ is_match s = true /\ tk_pos t = p /\
         get_match m (Z.of_nat (s_y s) - 1) (Z.of_nat (s_x s) - 1) = Ok (v, t)).
Proof.
  induction l as [|s l IH]; intros al0 us0 HM HU HI.
  - exists al0, us0. split; [reflexivity|]. split; auto.
  - cbn [foldM]. unfold align_step at 1.
    assert (HM' : forall s, In s l -> is_match s = true -> has_match m (Z.of_nat (s_y s) - 1) (Z.of_nat (s_x s) - 1) = true)
      by (intros; apply HM; simpl; auto).
    destruct (s_type s) eqn:Et;
    try (simpl; destruct (IH al0 us0 HM' HU HI) as [al [us [E1 [E0 E2]]]];
         exists al, us; split; [exact E1|]; split; [exact E0|]; intros p v Hp; destruct (E2 p v Hp) as [Q|[s' [t [Q1 Q2]]]]; auto;
         right; exists s', t; split; [right; assumption | assumption]).
    assert (Hm : is_match s = true) by (unfold is_match; rewrite Et; reflexivity).
    pose proof (HM s (or_introl eq_refl) Hm) as Hh. unfold has_match, dmem in Hh.
    destruct (dget coord_eqb (Z.of_nat (s_y s) - 1, Z.of_nat (s_x s) - 1)%Z m) as [[v t]|] eqn:Eg; [|discriminate].
    assert (Gm : get_match m (Z.of_nat (s_y s) - 1) (Z.of_nat (s_x s) - 1) = Ok (v, t))
      by (unfold get_match, dgetE; rewrite Eg; reflexivity).
    rewrite Gm. cbn [bind]. destruct (existsb (Nat.eqb v) us0) eqn:Eu.
    + cbn [bind]. destruct (IH al0 us0 HM' HU HI) as [al [us [E1 [E0 E2]]]].
      exists al, us. split; [exact E1|]. split; [exact E0|]. intros p w Hp. destruct (E2 p w Hp) as [Q|[s' [t' [Q1 Q2]]]]; auto.
      right. exists s', t'. split; [right; assumption | assumption].
    + cbn [bind].
      destruct (IH (dset Nat.eqb (tk_pos t) v al0) (v :: us0) HM') as [al [us [E1 [E0 E2]]]].
      * intros p w Hp. rewrite (dget_set _ nat_eqb_ok) in Hp. destruct (tk_pos t =? p).
        -- injection Hp as <-. left. reflexivity.
        -- right. eauto.
      * intros p1 p2 w H1 H2. rewrite (dget_set _ nat_eqb_ok) in H1, H2.
        assert (NU : ~ In v us0).
        { intro C. apply (existsb_eqb _ nat_eqb_ok) in C. congruence. }
        destruct (tk_pos t =? p1) eqn:D1, (tk_pos t =? p2) eqn:D2.
        -- apply Nat.eqb_eq in D1, D2. congruence.
        -- injection H1 as <-. exfalso. eauto.
        -- injection H2 as <-. exfalso. eauto.
        -- eauto.
      * exists al, us. split; [exact E1|]. split; [exact E0|]. intros p w Hp. destruct (E2 p w Hp) as [Q|[s' [t' [Q1 Q2]]]].
        -- rewrite (dget_set _ nat_eqb_ok) in Q. destruct (tk_pos t =? p) eqn:D; auto.
           apply Nat.eqb_eq in D. injection Q as <-. right. exists s, t. split; [left; reflexivity|]. auto.
        -- right. exists s', t'. split; [right; assumption | assumption].
Qed.
