(** The alignment chosen by the aligner is an optimal walk. *)
From Verif Require Import Py Lib TokenModel SuffixModel IndexModel GraphModel AlignModel AlignProof WalkSpec.
Open Scope list_scope.
Open Scope nat_scope.

Lemma walk_snoc : forall M ms m, walk M (ms ++ [m]) = step M (walk M ms) m.
Proof. intros. unfold walk. rewrite fold_left_app. reflexivity. Qed.

Lemma max3_ge : forall a b c, (s_g a <= s_g (max3 a b c) /\ s_g b <= s_g (max3 a b c) /\ s_g c <= s_g (max3 a b c))%Z.
Proof.
  intros. unfold max3. destruct (Z.ltb_spec (s_g a) (s_g b)).
  - destruct (Z.ltb_spec (s_g b) (s_g c)); lia.
  - destruct (Z.ltb_spec (s_g a) (s_g c)); lia.
Qed.

Lemma max3_first : forall a b c, max3 a b c = a \/ (s_g a < s_g (max3 a b c))%Z.
Proof.
  intros. unfold max3. destruct (Z.ltb_spec (s_g a) (s_g b)).
  - right. destruct (Z.ltb_spec (s_g b) (s_g c)); lia.
  - destruct (Z.ltb_spec (s_g a) (s_g c)); [right; lia|left; reflexivity].
Qed.

Lemma max3_second : forall a b c, max3 a b c = a \/ max3 a b c = b \/ (s_g b < s_g (max3 a b c))%Z.
Proof.
  intros. unfold max3. destruct (Z.ltb_spec (s_g a) (s_g b)).
  - destruct (Z.ltb_spec (s_g b) (s_g c)); auto.
  - destruct (Z.ltb_spec (s_g a) (s_g c)); [right; right; lia|left; reflexivity].
Qed.

Section Optimal.
  Variables (m : cube) (cols rows : nat) (M : nat -> nat -> bool).
  Hypothesis C1 : 1 <= cols.
  Let cells := fill_table m cols rows.
  Hypothesis MM : forall y x, 1 <= y <= rows -> 1 <= x < cols -> has_match m (Z.of_nat y - 1) (Z.of_nat x - 1) = M y x.
  Hypothesis M0 : forall x, M 0 x = false.
  Hypothesis N0 : forall y, M y 0 = false.
  Hypothesis MN : forall x, has_match m (-1) x = false.

  Definition bonus (b : bool) : Z := if b then 1%Z else (-1)%Z.

  Lemma sc_score_g : forall x y p, 1 <= y <= rows -> 1 <= x < cols -> s_g (sc_score m x y p) = (s_g p + bonus (M y x))%Z.
  Proof. intros x y p Hy Hx. unfold sc_score. rewrite MM by assumption. destruct (M y x); cbn; lia. Qed.

  Lemma from_upper_g : forall x y p, 1 <= y <= rows -> 1 <= x < cols ->
    s_g (from_upper m x y p) = (s_g p + bonus (M (y - 1) x && M y x))%Z.
  Proof.
    intros x y p Hy Hx. unfold from_upper.
    assert (U : has_match m (Z.of_nat y - 2) (Z.of_nat x - 1) = M (y - 1) x).
    { destruct (Nat.eq_dec y 1) as [->|N].
      - rewrite M0. apply MN.
      - rewrite <- MM by lia. f_equal. lia. }
    rewrite U. destruct (M (y - 1) x); cbn [andb].
    - apply sc_score_g; assumption.
    - cbn. lia.
  Qed.

  Lemma step_points : forall w mv, points (step M w mv) =
    (points w + bonus (is_hit M mv (at_token (step M w mv)) (at_rank (step M w mv))))%Z.
  Proof. intros w mv. unfold step. cbn [points at_token at_rank]. destruct (is_hit M mv _ _); cbn; lia. Qed.

  (** No walk has more points than the cell it ends in. *)
  Lemma walk_bound : forall ms x y s, at_rank (walk M ms) = x -> at_token (walk M ms) = y ->
    cell_at cells y x = Some s -> (points (walk M ms) <= s_g s)%Z.
  Proof.
    intros ms. induction ms as [|mv ms IH] using rev_ind; intros x y s Hx Hy Hc.
    - cbn in *. subst. unfold cells in Hc. rewrite cell_00 in Hc. injection Hc as <-. cbn. lia.
    - destruct (cell_bounds m cols rows C1 y x s Hc) as [Ly Lx].
      rewrite walk_snoc in *. rewrite step_points, Hx, Hy. set (w := walk M ms) in *.
      destruct mv; cbn [step at_rank at_token] in Hx, Hy; subst x y.
      + destruct (cell_ex m cols rows C1 (at_token w) (at_rank w)) as [s1 H1]; try lia.
        destruct (cell_ex m cols rows C1 (S (at_token w)) (at_rank w)) as [s2 H2]; try lia.
        destruct (cell_ex m cols rows C1 (at_token w) (S (at_rank w))) as [s3 H3]; try lia.
        unfold cells in Hc. rewrite (cell_SS m cols rows C1 _ _ s1 s2 s3) in Hc by (auto; lia). injection Hc as <-.
        pose proof (IH _ _ s1 eq_refl eq_refl H1) as P.
        match goal with |- (_ <= s_g (max3 ?a ?b ?c))%Z => pose proof (max3_ge a b c) as [Q _] end.
        rewrite sc_score_g in Q by lia. cbn [is_hit]. lia.
      + destruct (cell_ex m cols rows C1 (at_token w) (at_rank w)) as [s2 H2]; try lia.
        pose proof (IH _ _ s2 eq_refl eq_refl H2) as P. cbn [is_hit bonus].
        destruct (at_token w) as [|y] eqn:Ey.
        * unfold cells in Hc. rewrite (cell_0S m cols rows C1 (at_rank w) s2) in Hc by (auto; lia). injection Hc as <-. cbn. lia.
        * destruct (cell_ex m cols rows C1 y (at_rank w)) as [s1 H1]; try lia.
          destruct (cell_ex m cols rows C1 y (S (at_rank w))) as [s3 H3]; try lia.
          unfold cells in Hc. rewrite (cell_SS m cols rows C1 _ _ s1 s2 s3) in Hc by (auto; lia). injection Hc as <-.
          match goal with |- (_ <= s_g (max3 ?a ?b ?c))%Z => pose proof (max3_ge a b c) as [_ [Q _]] end.
          cbn [sc_gap s_g] in Q. lia.
      + destruct (cell_ex m cols rows C1 (at_token w) (at_rank w)) as [s3 H3]; try lia.
        pose proof (IH _ _ s3 eq_refl eq_refl H3) as P.
        destruct (at_rank w) as [|x] eqn:Ex.
        * unfold cells in Hc. rewrite (cell_S0 m cols rows C1 (at_token w) s3) in Hc by (auto; lia). injection Hc as <-.
          cbn [is_hit]. rewrite !N0. cbn. lia.
        * destruct (cell_ex m cols rows C1 (at_token w) x) as [s1 H1]; try lia.
          destruct (cell_ex m cols rows C1 (S (at_token w)) x) as [s2 H2]; try lia.
          unfold cells in Hc. rewrite (cell_SS m cols rows C1 _ _ s1 s2 s3) in Hc by (auto; lia). injection Hc as <-.
          match goal with |- (_ <= s_g (max3 ?a ?b ?c))%Z => pose proof (max3_ge a b c) as [_ [_ Q]] end.
          rewrite from_upper_g in Q by lia. cbn [is_hit]. lia.
  Qed.

  (** The traceback is a walk with the points of its last cell; its hits are the match cells. *)
  Lemma from_upper_match : forall x y p, 1 <= y <= rows -> 1 <= x < cols -> s_x p = x ->
    is_match (from_upper m x y p) = M (y - 1) x && M y x.
  Proof.
    intros x y p Hy Hx Hp. unfold from_upper.
    assert (U : has_match m (Z.of_nat y - 2) (Z.of_nat x - 1) = M (y - 1) x).
    { destruct (Nat.eq_dec y 1) as [->|N].
      - rewrite M0. apply MN.
      - rewrite <- MM by lia. f_equal. lia. }
    rewrite U. destruct (M (y - 1) x); cbn [andb].
    - unfold sc_score. rewrite MM by assumption. destruct (M y x); reflexivity.
    - unfold is_match, sc_gap, determine_type. cbn [s_type]. rewrite Hp, Nat.eqb_refl. reflexivity.
  Qed.

  Lemma from_upper_parent : forall x y p, s_px (from_upper m x y p) = s_x p /\ s_py (from_upper m x y p) = s_y p.
  Proof. intros. unfold from_upper, sc_score. destruct (has_match _ _ _); [destruct (has_match _ _ _)|]; split; reflexivity. Qed.

  Lemma trace_walk : forall x y l s, trace m cols rows x y l -> cell_at cells y x = Some s ->
    exists ms, at_rank (walk M ms) = x /\ at_token (walk M ms) = y /\ points (walk M ms) = s_g s /\
      met (walk M ms) = rev (map (fun s => (s_y s, s_x s)) (filter is_match l)) /\ preferred M ms.
  Proof.
    intros x y l s T. revert s. induction T as [|x y s0 l N C0 T IH]; intros s Hc.
    - unfold cells in Hc. rewrite cell_00 in Hc. injection Hc as <-. exists []. cbn. repeat (split; [reflexivity|]).
      intros before mv after E. destruct before; discriminate.
    - unfold cells in Hc. rewrite C0 in Hc. injection Hc as <-.
      destruct (cell_bounds m cols rows C1 y x s0 C0) as [Ly Lx].
      (* the move made last *)
      assert (K : exists mv sp, cell_at cells (s_py s0) (s_px s0) = Some sp /\
        (match mv with Add => s_px s0 = x | _ => S (s_px s0) = x end) /\
        (match mv with Omit => s_py s0 = y | _ => S (s_py s0) = y end) /\
        s_g s0 = (s_g sp + bonus (is_hit M mv y x))%Z /\ is_match s0 = is_hit M mv y x /\
        (mv <> Pair -> forall y1 x1 s1, y = S y1 -> x = S x1 -> cell_at cells y1 x1 = Some s1 -> (s_g s1 + bonus (M y x) < s_g s0)%Z) /\
        (mv = Add -> forall x1 s2, x = S x1 -> cell_at cells y x1 = Some s2 -> (s_g s2 - 1 < s_g s0)%Z)).
      { unfold cells. destruct y as [|y], x as [|x]; [lia| | |].
        - destruct (cell_ex m cols rows C1 0 x) as [s2 H2]; try lia.
          rewrite (cell_0S m cols rows C1 x s2) in C0 by (auto; lia). injection C0 as <-.
          destruct (cell_pos m cols rows C1 _ _ _ H2) as [P1 P2].
          exists Omit, s2. cbn [sc_gap s_px s_py s_g]. rewrite P1, P2. split; [assumption|].
          split; [reflexivity|]. split; [reflexivity|]. split; [cbn; lia|]. unfold is_match, sc_gap, determine_type. cbn [s_type].
          rewrite P1, P2. replace (S x =? x) with false by (symmetry; apply Nat.eqb_neq; lia). split; [reflexivity|]. split; [intros; lia|discriminate].
        - destruct (cell_ex m cols rows C1 y 0) as [s3 H3]; try lia.
          rewrite (cell_S0 m cols rows C1 y s3) in C0 by (auto; lia). injection C0 as <-.
          destruct (cell_pos m cols rows C1 _ _ _ H3) as [P1 P2].
          exists Add, s3. cbn [sc_gap s_px s_py s_g is_hit]. rewrite P1, P2, !N0. split; [assumption|].
          split; [reflexivity|]. split; [reflexivity|]. split; [cbn; lia|]. unfold is_match, sc_gap, determine_type. cbn [s_type].
          rewrite P1. split; [reflexivity|]. split; intros; lia.
        - destruct (cell_ex m cols rows C1 y x) as [s1 H1]; try lia.
          destruct (cell_ex m cols rows C1 (S y) x) as [s2 H2]; try lia.
          destruct (cell_ex m cols rows C1 y (S x)) as [s3 H3]; try lia.
          rewrite (cell_SS m cols rows C1 _ _ s1 s2 s3) in C0 by (auto; lia). injection C0 as E0.
          destruct (cell_pos m cols rows C1 _ _ _ H1) as [P1 P2]. destruct (cell_pos m cols rows C1 _ _ _ H2) as [P3 P4].
          destruct (cell_pos m cols rows C1 _ _ _ H3) as [P5 P6].
          assert (FST : s0 = sc_score m (S x) (S y) s1 \/ (s_g s1 + bonus (M (S y) (S x)) < s_g s0)%Z).
          { rewrite <- E0, <- (sc_score_g (S x) (S y) s1) by lia. apply max3_first. }
          assert (LST : (s_g s1 + bonus (M (S y) (S x)) < s_g s0)%Z ->
            forall y1 x1 s4, S y = S y1 -> S x = S x1 -> cell_at (fill_table m cols rows) y1 x1 = Some s4 -> (s_g s4 + bonus (M (S y) (S x)) < s_g s0)%Z).
          { intros Q y1 x1 s4 Qy Qx Q4. injection Qy as <-. injection Qx as <-. assert (s4 = s1) by congruence. subst s4. assumption. }
          assert (E : s0 = sc_score m (S x) (S y) s1 \/
            ((s_g s1 + bonus (M (S y) (S x)) < s_g s0)%Z /\ (s0 = sc_gap (S x) (S y) s2 \/ (s0 = from_upper m (S x) (S y) s3 /\ (s_g s2 - 1 < s_g s0)%Z)))).
          { destruct FST as [E|FST]; [left; assumption|].
            destruct (max3_second (sc_score m (S x) (S y) s1) (sc_gap (S x) (S y) s2) (from_upper m (S x) (S y) s3)) as [E|[E|SND]];
              [rewrite E in E0; left; auto|rewrite E in E0; right; auto|].
            destruct (max3_cases (sc_score m (S x) (S y) s1) (sc_gap (S x) (S y) s2) (from_upper m (S x) (S y) s3)) as [E|[E|E]]; rewrite E0 in *;
              [left|right|right]; auto. }
          clear FST. destruct E as [E|[FST [E|[E SND]]]]; specialize (LST) ; clear E0; subst s0.
          + exists Pair, s1.
            assert (Q : s_px (sc_score m (S x) (S y) s1) = x /\ s_py (sc_score m (S x) (S y) s1) = y).
            { unfold sc_score. destruct (has_match _ _ _); auto. }
            destruct Q as [Q1 Q2]. rewrite Q1, Q2. split; [assumption|]. split; [reflexivity|]. split; [reflexivity|].
            split; [apply sc_score_g; lia|]. unfold sc_score. rewrite MM by lia. cbn [is_hit]. split; [destruct (M (S y) (S x)); reflexivity|]. split; [congruence|discriminate].
          + exists Omit, s2. cbn [sc_gap s_px s_py s_g]. rewrite P3, P4. split; [assumption|].
            split; [reflexivity|]. split; [reflexivity|]. split; [cbn; lia|]. unfold is_match, sc_gap, determine_type. cbn [s_type].
            rewrite P3, P4, Nat.eqb_refl. replace (S x =? x) with false by (symmetry; apply Nat.eqb_neq; lia). split; [reflexivity|].
            split; [intros _; apply LST; exact FST|discriminate].
          + exists Add, s3. destruct (from_upper_parent (S x) (S y) s3) as [Q1 Q2]. rewrite Q1, Q2, P5, P6. split; [assumption|].
            split; [reflexivity|]. split; [reflexivity|]. split; [apply from_upper_g; lia|]. split; [apply from_upper_match; lia|].
            split; [intros _; apply LST; exact FST|]. intros _ x1 s4 Qx Q4. injection Qx as <-. assert (s4 = s2) by congruence. subst s4. exact SND. }
      destruct K as [mv [sp [K1 [K2 [K3 [K4 [K5 [K6 K7]]]]]]]].
      destruct (IH sp K1) as [ms [A1 [A2 [A3 [A4 A5]]]]].
      exists (ms ++ [mv]). rewrite walk_snoc.
      assert (R : at_rank (step M (walk M ms) mv) = x /\ at_token (step M (walk M ms) mv) = y).
      { destruct mv; cbn [step at_rank at_token]; rewrite A1, A2; auto. }
      destruct R as [R1 R2]. split; [assumption|]. split; [assumption|]. split; [|split].
      + rewrite step_points, R1, R2, A3. lia.
      + destruct (cell_pos m cols rows C1 _ _ _ C0) as [P1 P2].
        unfold step. cbn [met]. unfold step in R1, R2. cbn [at_rank at_token] in R1, R2. rewrite R1, R2.
        cbn [filter]. rewrite K5. destruct (is_hit M mv y x); [|assumption].
        cbn [map rev]. rewrite A4, P1, P2. reflexivity.
      + intros before mv' after EQ mv1 SO other. destruct after as [|a after _] using rev_ind.
        * apply app_inj_tail in EQ as [-> ->]. rewrite !walk_snoc, R1, R2. intros X Y.
          destruct mv1; [| |destruct mv'; destruct SO]; cbn [step at_rank at_token] in X, Y;
            (destruct (cell_ex m cols rows C1 (at_token (walk M other)) (at_rank (walk M other))) as [s4 H4]; try lia);
            pose proof (walk_bound other _ _ s4 eq_refl eq_refl H4) as WB.
          -- assert (NP : mv' <> Pair) by (intros ->; destruct SO). pose proof (K6 NP _ _ s4 (eq_sym Y) (eq_sym X) H4) as LT.
             rewrite !step_points, R1, R2, A3. cbn [step at_rank at_token is_hit]. rewrite X, Y. lia.
          -- assert (NP : mv' = Add) by (destruct mv'; [destruct SO|destruct SO|reflexivity]).
             rewrite Y in H4. pose proof (K7 NP _ s4 (eq_sym X) H4) as LT.
             rewrite !step_points, R1, R2, A3. cbn [step at_rank at_token is_hit bonus]. lia.
        * rewrite app_comm_cons, app_assoc in EQ. apply app_inj_tail in EQ as [-> _]. apply (A5 before mv' after eq_refl mv1 SO).
  Qed.
End Optimal.

(** ** The usual score *)
Section Plain.
  Variable M : nat -> nat -> bool.
  Lemma plain_snoc : forall ms m, plain_walk M (ms ++ [m]) = plain_step M (plain_walk M ms) m.
  Proof. intros. unfold plain_walk. rewrite fold_left_app. reflexivity. Qed.

  (** Where no rank matches two neighbouring tokens the two scores agree. *)
  Lemma walk_plain : (forall y x, M y x = true -> M (S y) x = false) -> forall ms, walk M ms = plain_walk M ms.
  Proof.
    intros H ms. induction ms as [|m ms IH] using rev_ind; [reflexivity|]. rewrite walk_snoc, plain_snoc, IH.
    destruct m; try reflexivity. unfold step, plain_step. cbn [is_hit]. replace (S (at_token (plain_walk M ms)) - 1) with (at_token (plain_walk M ms)) by lia.
    destruct (M (at_token (plain_walk M ms)) (at_rank (plain_walk M ms))) eqn:E; [|reflexivity].
    rewrite (H _ _ E). reflexivity.
  Qed.

  Lemma plain_points : forall ms, points (plain_walk M ms) = (2 * Z.of_nat (length (met (plain_walk M ms))) - Z.of_nat (length ms))%Z.
  Proof.
    induction ms as [|m ms IH] using rev_ind; [reflexivity|]. rewrite plain_snoc, app_length. unfold plain_step. cbn [points met length].
    destruct m; cbv zeta; try (rewrite IH; lia). destruct (M _ _); [rewrite app_length; cbn [length]; lia|lia].
  Qed.
  Lemma plain_length : forall ms, at_token (plain_walk M ms) <= length ms /\ at_rank (plain_walk M ms) <= length ms.
  Proof.
    induction ms as [|m ms IH] using rev_ind; [cbn; lia|]. rewrite plain_snoc, app_length. cbn [length]. destruct m; cbn [plain_step at_token at_rank]; lia.
  Qed.
  (** Hits go up and to the right. *)
  Lemma plain_met_mono : forall ms, (forall y x, In (y, x) (met (plain_walk M ms)) -> y <= at_token (plain_walk M ms) /\ x <= at_rank (plain_walk M ms)) /\
    NoDup (map snd (met (plain_walk M ms))).
  Proof.
    induction ms as [|m ms [IH1 IH2]] using rev_ind; [split; [intros y x []|constructor]|]. rewrite plain_snoc. unfold plain_step.
    destruct m; cbn [met at_token at_rank].
    - destruct (M _ _).
      + split.
        * intros y x H. apply in_app_or in H as [H|[H|[]]]; [apply IH1 in H; lia|]. injection H as <- <-. lia.
        * rewrite map_app. apply NoDup_app_iff. split; [assumption|]. split; [repeat constructor; intros []|].
          intros a A B. apply in_map_iff in A as [[y x] [<- A]]. apply IH1 in A. cbn in B. destruct B as [B|[]]. cbn in B. lia.
      + split; [|assumption]. intros y x H. apply IH1 in H. lia.
    - split; [|assumption]. intros y x H. apply IH1 in H. lia.
    - split; [|assumption]. intros y x H. apply IH1 in H. lia.
  Qed.
  Lemma plain_met_inj : forall ms y y' x, In (y, x) (met (plain_walk M ms)) -> In (y', x) (met (plain_walk M ms)) -> y = y'.
  Proof.
    intros ms y y' x A B. destruct (plain_met_mono ms) as [_ ND]. revert ND A B. generalize (met (plain_walk M ms)). clear.
    induction l as [|[a b] l IH]; intros ND A B; [destruct A|]. inversion ND as [|? ? N1 N2]; subst.
    destruct A as [A|A], B as [B|B]; try congruence.
    - injection A as -> ->. exfalso. apply N1. apply in_map_iff. exists (y', x). auto.
    - injection B as -> ->. exfalso. apply N1. apply in_map_iff. exists (y, x). auto.
    - auto.
  Qed.
End Plain.
