(** A long enough passage that two texts have in common is aligned. *)
From Verif Require Import Py Lib TokenModel IndexModel GraphModel TableModel GraphSpec TableSpec WalkSpec WalkProof PairSpec PairProof
  ChosenSpec ChosenProof CommonSpec CommonProof SegTableSpec NearTableSpec.
From Coq Require Import Sorted.
Open Scope list_scope.
Open Scope nat_scope.

(** ** Walks through a diagonal of matches *)
Section Diagonal.
  Variable M : nat -> nat -> bool.
  Variables a b n : nat.
  Hypothesis ND : forall y x, M y x = true -> M (S y) x = false.
  Hypothesis DG : forall i, 1 <= i <= n -> M (a + i) (b + i) = true.
  Hypothesis UP : forall i x, 1 <= i <= n -> M (a + i) x = true -> x = b + i.
  Hypothesis UR : forall i y, 1 <= i <= n -> M y (b + i) = true -> y = a + i.

  Lemma no_add : forall y x, M (S y - 1) x && M (S y) x = false.
  Proof. intros y x. replace (S y - 1) with y by lia. destruct (M y x) eqn:E; [|reflexivity]. rewrite (ND y x E). reflexivity. Qed.

  Definition corner (ms : list move) : Prop := exists j, j <= n /\ at_token (walk M ms) = a + j /\ at_rank (walk M ms) = b + j.

  Lemma corner_dec : forall ms, corner ms \/ ~ corner ms.
  Proof.
    intros ms. destruct (le_lt_dec a (at_token (walk M ms))) as [L|L]; [|right; intros [j H]; lia].
    destruct (le_lt_dec (at_token (walk M ms) - a) n) as [L2|L2]; [|right; intros [j H]; lia].
    destruct (Nat.eq_dec (at_rank (walk M ms)) (b + (at_token (walk M ms) - a))) as [E|E]; [left; exists (at_token (walk M ms) - a); lia|right; intros [j H]; lia].
  Qed.

  Lemma meets_or_not : forall ms, (exists p r, ms = p ++ r /\ corner p) \/ forall p r, ms = p ++ r -> ~ corner p.
  Proof.
    induction ms as [|m ms IH] using rev_ind.
    - destruct (corner_dec []) as [C|C]; [left; exists [], []; auto|right]. intros [|? ?] r E; [exact C|discriminate].
    - destruct (corner_dec (ms ++ [m])) as [C|C]; [left; exists (ms ++ [m]), []; rewrite app_nil_r; auto|].
      destruct IH as [[p [r [-> H]]]|IH]; [left; exists p, (r ++ [m]); rewrite app_assoc; auto|right].
      intros p r E. destruct r as [|z r _] using rev_ind; [rewrite app_nil_r in E; subst p; exact C|].
      rewrite app_assoc in E. apply app_inj_tail in E as [-> ->]. apply (IH p r eq_refl).
  Qed.

  (** Tokens (ranks) up to [y] inside the passage that begins after [c]. *)
  Definition inside (c y : nat) : nat := Nat.min n (y - c).

  Lemma missed : forall ms, (forall p r, ms = p ++ r -> ~ corner p) ->
    (points (walk M ms) <= Z.of_nat (at_token (walk M ms)) - 2 * Z.of_nat (inside a (at_token (walk M ms))))%Z /\
    (points (walk M ms) <= Z.of_nat (at_rank (walk M ms)) - 2 * Z.of_nat (inside b (at_rank (walk M ms))))%Z.
  Proof.
    unfold inside. induction ms as [|m ms IH] using rev_ind; intros H; [unfold walk; cbn [fold_left points at_token at_rank]; lia|].
    assert (C : ~ corner ms) by (apply (H ms [m]); reflexivity).
    destruct IH as [I1 I2]; [intros p r ->; apply (H p (r ++ [m])); rewrite app_assoc; reflexivity|].
    rewrite walk_snoc. unfold step. destruct m; cbn [points at_token at_rank is_hit]; [| lia|rewrite no_add; lia].
    destruct (M (S (at_token (walk M ms))) (S (at_rank (walk M ms)))) eqn:E; [|lia].
    assert (T : ~ (a <= at_token (walk M ms) < a + n)).
    { intros L. apply C. exists (at_token (walk M ms) - a). split; [lia|]. split; [lia|].
      replace (S (at_token (walk M ms))) with (a + (S (at_token (walk M ms)) - a)) in E by lia. apply UP in E; lia. }
    assert (R : ~ (b <= at_rank (walk M ms) < b + n)).
    { intros L. apply C. exists (at_rank (walk M ms) - b). split; [lia|]. split; [|lia].
      replace (S (at_rank (walk M ms))) with (b + (S (at_rank (walk M ms)) - b)) in E by lia. apply UR in E; lia. }
    lia.
  Qed.

  Lemma onwards : forall dy dx ms, exists r, at_token (walk M (ms ++ r)) = at_token (walk M ms) + dy /\ at_rank (walk M (ms ++ r)) = at_rank (walk M ms) + dx /\
    (points (walk M ms) - Z.of_nat (Nat.max dy dx) <= points (walk M (ms ++ r)))%Z.
  Proof.
    induction dy as [|dy IH].
    - induction dx as [|dx IH]; intros ms; [exists []; rewrite app_nil_r; lia|]. destruct (IH ms) as [r [A [B C]]]. exists (r ++ [Omit]).
      rewrite app_assoc, walk_snoc. cbn [step at_token at_rank points is_hit]. lia.
    - intros [|dx] ms; [destruct (IH 0 ms) as [r [A [B C]]]; exists (r ++ [Add])|destruct (IH dx ms) as [r [A [B C]]]; exists (r ++ [Pair])];
        rewrite app_assoc, walk_snoc; cbn [step at_token at_rank points is_hit]; [destruct (_ && _); lia|destruct (M _ _); lia].
  Qed.

  Lemma along : forall k ms, k <= n -> at_token (walk M ms) = a -> at_rank (walk M ms) = b ->
    at_token (walk M (ms ++ repeat Pair k)) = a + k /\ at_rank (walk M (ms ++ repeat Pair k)) = b + k /\
    points (walk M (ms ++ repeat Pair k)) = (points (walk M ms) + Z.of_nat k)%Z.
  Proof.
    induction k as [|k IH]; intros ms L A B; [cbn [repeat]; rewrite app_nil_r; lia|]. destruct (IH ms ltac:(lia) A B) as [C [D E]].
    replace (repeat Pair (S k)) with (repeat Pair k ++ [Pair]) by (symmetry; apply repeat_cons). rewrite app_assoc, walk_snoc. unfold step.
    cbn [at_token at_rank points is_hit]. rewrite C, D, E. replace (S (a + k)) with (a + S k) by lia. replace (S (b + k)) with (b + S k) by lia. rewrite DG by lia. lia.
  Qed.

  (** The match relation seen from the point (a, b). *)
  Definition from_here (y x : nat) : bool := match y, x with S _, S _ => M (a + y) (b + x) | _, _ => false end.

  Lemma here_walk : forall p q, at_token (walk M p) = a -> at_rank (walk M p) = b ->
    at_token (walk M (p ++ q)) = a + at_token (walk from_here q) /\ at_rank (walk M (p ++ q)) = b + at_rank (walk from_here q) /\
    points (walk M (p ++ q)) = (points (walk M p) + points (walk from_here q))%Z.
  Proof.
    intros p q A B. induction q as [|m q IH] using rev_ind; [rewrite app_nil_r; cbn; lia|]. rewrite app_assoc, !walk_snoc. destruct IH as [I1 [I2 I3]].
    assert (F : forall y x, from_here (S y - 1) x && from_here (S y) x = false).
    { intros [|y] [|x]; try reflexivity. cbn [from_here Nat.sub]. replace (a + S (S y)) with (S (a + S y)) by lia.
      destruct (M (a + S y) (b + S x)) eqn:E; [apply ND; exact E|reflexivity]. }
    unfold step. destruct m; cbn [at_token at_rank points is_hit]; rewrite ?no_add, ?F, I1, I2; [|lia|lia].
    cbn [from_here]. rewrite <- !Nat.add_succ_r. destruct (M _ _); lia.
  Qed.

  (** A best walk that prefers pairs goes through the whole diagonal, if this is worth it. *)
  Theorem through : forall ms N1 N2, good_way M N2 N1 (points (walk M ms), ms) -> a + n <= N2 -> b + n <= N1 ->
    (Nat.max a b + Nat.max (N2 - (a + n)) (N1 - (b + n)) + Nat.min (N1 - n) (N2 - n) < 2 * n \/ (a = 0 /\ b = 0) \/ (N2 = a + n /\ N1 = b + n)) ->
    exists p r, ms = p ++ repeat Pair n ++ r /\ at_token (walk M p) = a /\ at_rank (walk M p) = b.
  Proof.
    intros ms N1 N2 [[E1 E2] [_ [BS PF]]] L2 L1 LN. cbn [snd] in *.
    assert (ALT : exists q, at_token (walk M q) = N2 /\ at_rank (walk M q) = N1 /\
      (Z.of_nat n - Z.of_nat (Nat.max a b) - Z.of_nat (Nat.max (N2 - (a + n)) (N1 - (b + n))) <= points (walk M q))%Z).
    { destruct (onwards a b []) as [p [A [B C]]]. cbn [app walk fold_left at_token at_rank points] in A, B, C. rewrite Nat.add_0_l in A, B. fold (walk M p) in *.
      destruct (along n p (le_n _) A B) as [D [F G]].
      destruct (onwards (N2 - (a + n)) (N1 - (b + n)) (p ++ repeat Pair n)) as [r [A1 [B1 C1]]]. exists ((p ++ repeat Pair n) ++ r). unfold walk at 1 in C. fold (walk M p) in C. lia. }
    destruct (meets_or_not ms) as [[p [r [-> [j [Lj [C1 C2]]]]]]|NO].
    - assert (PP : preferred M p).
      { intros before m after E. subst p. apply (PF before m (after ++ r)). rewrite <- app_assoc. reflexivity. }
      destruct (last_pairs M j p PP) as [p0 ->]; [lia|lia| | |].
      { intros i Hi. rewrite C1, C2. replace (a + j - i) with (a + (j - i)) by lia. replace (b + j - i) with (b + (j - i)) by lia. apply DG. lia. }
      { intros i y _. pose proof (no_add y (at_rank (walk M p) - i)) as Q. replace (S y - 1) with y in Q by lia. exact Q. }
      destruct (pairs_walk M j p0) as [W1 [W2 _]]. assert (A0 : at_token (walk M p0) = a) by lia. assert (B0 : at_rank (walk M p0) = b) by lia.
      rewrite <- app_assoc in *. set (r0 := repeat Pair j ++ r) in *. destruct (here_walk p0 r0 A0 B0) as [H1 [H2 H3]].
      destruct (first_pairs from_here n) with (k := n) (ms := r0) as [r' E]; [| |lia|lia|lia| |].
      + intros [|i] Hi; [lia|]. cbn [from_here]. apply DG. exact Hi.
      + intros [|y] [|x] H; try discriminate. cbn [from_here] in H. split; [lia|]. split; [lia|]. intros [Q|Q].
        * apply UP in H; lia.
        * apply UR in H; lia.
      + intros q Q1 Q2. destruct (here_walk p0 q A0 B0) as [G1 [G2 G3]]. assert (X := BS (p0 ++ q) N2 N1). unfold ends in X.
        specialize (X ltac:(lia) ltac:(lia)). lia.
      + exists p0, r'. rewrite E. auto.
    - destruct LN as [LN|[[-> ->]|[-> ->]]];
        [|exfalso; apply (NO [] ms eq_refl); exists 0; cbn; lia|exfalso; apply (NO ms []); [rewrite app_nil_r; reflexivity|exists n; lia]].
      destruct (missed ms NO) as [B1 B2]. destruct ALT as [q [A1 [A2 A3]]]. assert (X := BS q N2 N1). unfold ends in X. specialize (X ltac:(lia) ltac:(lia)).
      rewrite E1 in B1. rewrite E2 in B2. unfold inside in *. lia.
  Qed.
End Diagonal.

(** ** The pairs of two texts *)
Lemma same_word_iff : forall a b y x, same_word a b y x = true <-> exists s, 1 <= y /\ 1 <= x /\ nth_error b (y - 1) = Some s /\ nth_error a (x - 1) = Some s.
Proof.
  intros a b [|y] [|x]; cbn [same_word]; try (split; [discriminate|intros [s H]; lia]). cbn [Nat.sub]. rewrite !Nat.sub_0_r.
  destruct (nth_error b y) as [s|]; [|split; [discriminate|intros [s [_ [_ [H _]]]]; discriminate]].
  destruct (nth_error a x) as [t|]; [|split; [discriminate|intros [s' [_ [_ [_ H]]]]; discriminate]].
  rewrite str_eqb_ok. split; [intros ->; exists t; repeat split; lia|intros [s' [_ [_ [H1 H2]]]]; congruence].
Qed.

Lemma mid_nth : forall {A} (x u y : list A) i, i < length u -> nth_error (x ++ u ++ y) (length x + i) = nth_error u i.
Proof. intros A x u y i L. rewrite nth_app_r. apply nth_error_app1. exact L. Qed.

Theorem passage_pairs : forall X1 X2 u Y1 Y2, let A := X1 ++ u ++ Y1 in let B := X2 ++ u ++ Y2 in
  (forall s, In s u -> unrepeated s A) -> (forall s, In s u -> unrepeated s B) -> no_doublets B ->
  Nat.max (length X1) (length X2) + Nat.max (length Y1) (length Y2) + Nat.min (length X1 + length Y1) (length X2 + length Y2) < 2 * length u ->
  forall i, i < length u -> In (length X1 + i, length X2 + i) (chosen_pairs A B).
Proof.
  intros X1 X2 u Y1 Y2 A B UA UB NDB LN.
  assert (LA : length A = length X1 + length u + length Y1) by (unfold A; rewrite !app_length; lia).
  assert (LB : length B = length X2 + length u + length Y2) by (unfold B; rewrite !app_length; lia).
  assert (AT : forall i, 1 <= i <= length u -> exists s, In s u /\ nth_error A (length X1 + i - 1) = Some s /\ nth_error B (length X2 + i - 1) = Some s).
  { intros i Hi. destruct (nth_error u (i - 1)) as [s|] eqn:E; [|apply nth_error_None in E; lia]. exists s. split; [apply nth_error_In in E; exact E|].
    replace (length X1 + i - 1) with (length X1 + (i - 1)) by lia. replace (length X2 + i - 1) with (length X2 + (i - 1)) by lia.
    unfold A, B. rewrite !mid_nth by lia. auto. }
  set (M := same_word A B).
  assert (ND : forall y x, M y x = true -> M (S y) x = false).
  { intros y x H. destruct (M (S y) x) eqn:E; [|reflexivity]. apply same_word_iff in H as [s [H1 [_ [H2 H3]]]]. apply same_word_iff in E as [s' [_ [_ [E2 E3]]]].
    exfalso. apply (NDB (y - 1) s H2). replace (S (y - 1)) with (S y - 1) by lia. congruence. }
  assert (DG : forall i, 1 <= i <= length u -> M (length X2 + i) (length X1 + i) = true).
  { intros i Hi. destruct (AT i Hi) as [s [_ [H1 H2]]]. apply same_word_iff. exists s. split; [lia|]. split; [lia|]. auto. }
  assert (UP : forall i x, 1 <= i <= length u -> M (length X2 + i) x = true -> x = length X1 + i).
  { intros i x Hi H. apply same_word_iff in H as [s [_ [Hx [H2 H3]]]]. destruct (AT i Hi) as [s' [I' [H4 H5]]]. assert (s' = s) by congruence. subst s'.
    pose proof (UA s I' _ _ H3 H4). lia. }
  assert (UR : forall i y, 1 <= i <= length u -> M y (length X1 + i) = true -> y = length X2 + i).
  { intros i y Hi H. apply same_word_iff in H as [s [Hy [_ [H2 H3]]]]. destruct (AT i Hi) as [s' [I' [H4 H5]]]. assert (s' = s) by congruence. subst s'.
    pose proof (UB s I' _ _ H2 H5). lia. }
  set (ms := snd (best_way M (length B) (length A))).
  assert (GW : good_way M (length B) (length A) (points (walk M ms), ms)).
  { destruct (best_way_good M (length B) (length A)) as [G1 [_ [G3 G4]]]. split; [exact G1|]. split; [reflexivity|]. split; [exact G3|exact G4]. }
  destruct (through M (length X2) (length X1) (length u) ND DG UP UR ms (length A) (length B) GW) as [p [r [E [P1 P2]]]]; [lia|lia| |].
  { left. rewrite LA, LB. lia. }
  intros i Hi. unfold chosen_pairs. fold M. fold ms. apply in_map_iff. exists (length X2 + S i, length X1 + S i). cbn [fst snd]. split; [f_equal; lia|].
  apply filter_In. split.
  - rewrite E, app_assoc. apply met_more. destruct (pairs_walk M (length u) p) as [_ [_ [_ Q]]]. rewrite P1, P2 in Q. apply Q; [lia|]. apply DG. lia.
  - apply negb_true_iff. destruct (existsb _ _) eqn:Q; [|reflexivity]. apply existsb_exists in Q as [[y x] [Q1 Q2]]. cbn [fst snd] in Q2.
    apply andb_true_iff in Q2 as [Q2 Q3]. apply Nat.eqb_eq in Q2. apply Nat.ltb_lt in Q3. subst x. apply met_bounds in Q1 as [_ [_ Q1]]. apply UR in Q1; lia.
Qed.

(** ** The columns *)
Section Columns.
  (** The columns of the unpaired positions are made by [gp]. *)
  Variable gp : nat -> nat -> nat -> nat -> list (option nat * option nat).
  Hypothesis GP : forall i j, gp i i j j = [].
  Fixpoint columns (i j n m : nat) (P : list (nat * nat)) : list (option nat * option nat) :=
    match P with
    | [] => gp i n j m
    | (x, y) :: P' => gp i x j y ++ (Some x, Some y) :: columns (S x) (S y) n m P'
    end.

Lemma columns_run : forall n i j N M P, StronglySorted (fun p q : nat * nat => fst p < fst q /\ snd p < snd q) P ->
  (forall p, In p P -> i <= fst p /\ j <= snd p) -> (forall t, t < n -> In (i + t, j + t) P) ->
  forall t, t < n -> nth_error (columns i j N M P) t = Some (Some (i + t), Some (j + t)).
Proof.
  induction n as [|n IH]; intros i j N M P SS GE IN t Lt; [lia|]. destruct P as [|[x y] P]; [destruct (IN 0 ltac:(lia))|].
  inversion SS as [|? ? SS' F]; subst. rewrite Forall_forall in F.
  assert (x = i /\ y = j) as [-> ->].
  { pose proof (GE (x, y) (or_introl eq_refl)) as G. cbn [fst snd] in G. destruct (IN 0 ltac:(lia)) as [Q|Q]; [injection Q as -> ->; lia|].
    apply F in Q. cbn [fst snd] in Q. lia. }
  cbn [columns]. rewrite GP. cbn [app]. destruct t as [|t]; [cbn [nth_error]; rewrite !Nat.add_0_r; reflexivity|].
  cbn [nth_error]. replace (i + S t) with (S i + t) by lia. replace (j + S t) with (S j + t) by lia. apply IH; [exact SS'| | |lia].
  - intros p Hp. apply F in Hp. cbn [fst snd] in Hp. lia.
  - intros k Hk. destruct (IN (S k) ltac:(lia)) as [Q|Q]; [injection Q as Q1 Q2; lia|]. replace (S i + k) with (i + S k) by lia. replace (S j + k) with (j + S k) by lia. exact Q.
Qed.

Lemma columns_at : forall n P i j N M x y, StronglySorted (fun p q : nat * nat => fst p < fst q /\ snd p < snd q) P ->
  (forall t, t < n -> In (x + t, y + t) P) ->
  exists k, forall t, t < n -> nth_error (columns i j N M P) (k + t) = Some (Some (x + t), Some (y + t)).
Proof.
  intros [|n]; [intros; exists 0; intros; lia|].
  induction P as [|[x0 y0] P IH]; intros i j N M x y SS IN; [destruct (IN 0 ltac:(lia))|].
  inversion SS as [|? ? SS' F]; subst. rewrite Forall_forall in F. cbn [columns].
  destruct (IN 0 ltac:(lia)) as [Q|Q].
  - injection Q as -> ->. exists (length (gp i (x + 0) j (y + 0))). rewrite !Nat.add_0_r in *. intros t Lt. rewrite nth_app_r.
    destruct t as [|t]; [cbn [nth_error]; rewrite !Nat.add_0_r; reflexivity|]. cbn [nth_error].
    replace (x + S t) with (S x + t) by lia. replace (y + S t) with (S y + t) by lia. apply (columns_run n); [exact SS'| | |lia].
    + intros p Hp. apply F in Hp. cbn [fst snd] in Hp. lia.
    + intros k Hk. destruct (IN (S k) ltac:(lia)) as [Q|Q]; [injection Q as Q1 Q2; lia|]. replace (S x + k) with (x + S k) by lia. replace (S y + k) with (y + S k) by lia. exact Q.
  - destruct (IH (S x0) (S y0) N M x y SS') as [k K].
    { intros t Lt. destruct (IN t Lt) as [R|R]; [|exact R]. injection R as -> ->. apply F in Q. cbn [fst snd] in Q. lia. }
    exists (length (gp i x0 j y0) + S k). intros t Lt. rewrite <- Nat.add_assoc, nth_app_r. cbn [Nat.add nth_error]. apply K. exact Lt.
Qed.
End Columns.

Lemma plain_columns : forall n m P i j, layout i j n m P = columns gap i j n m P.
Proof. intros n m. induction P as [|[x y] P IH]; intros i j; cbn [layout columns]; [reflexivity|]. rewrite IH. reflexivity. Qed.
Lemma near_columns : forall l l' n m P i j, near_layout l l' i j n m P = columns (near_gap l l') i j n m P.
Proof. intros l l' n m. induction P as [|[x y] P IH]; intros i j; cbn [near_layout columns]; [reflexivity|]. rewrite IH. reflexivity. Qed.
Lemma no_gap : forall i j, gap i i j j = [].
Proof. intros i j. unfold gap. rewrite !Nat.sub_diag. reflexivity. Qed.
Lemma no_near_gap : forall l l' i j, near_gap l l' i i j j = [].
Proof. intros l l' i j. unfold near_gap. rewrite !Nat.sub_diag. reflexivity. Qed.

(** ** With segmentation *)
Definition run_with (x y n : nat) (s : stretch) : Prop :=
  exists a i b j, s = (true, positions a i, positions b j) /\ a <= x /\ x + n <= i /\ b <= y /\ y + n <= j.

Lemma run_goes_on : forall P a b i j N M x y n, StronglySorted (fun p q : nat * nat => fst p < fst q /\ snd p < snd q) P ->
  (forall p, In p P -> i <= fst p /\ j <= snd p) -> a <= x < i -> b <= y -> i + b = j + a -> x + b = y + a ->
  (forall t, t < n -> i <= x + t -> In (x + t, y + t) P) ->
  exists s, nth_error (stretches a b i j N M P) 0 = Some s /\ run_with x y n s.
Proof.
  induction P as [|[x0 y0] P IH]; intros a b i j N M x y n SS GE LA LB E1 E2 IN; cbn [stretches].
  - unfold run. destruct (Nat.ltb_spec a i); [|lia]. cbn [app nth_error]. eexists. split; [reflexivity|]. exists a, i, b, j. split; [reflexivity|].
    assert (x + n <= i). { destruct (le_lt_dec (x + n) i) as [L|L]; [exact L|]. destruct (IN (i - x) ltac:(lia) ltac:(lia)). } lia.
  - inversion SS as [|? ? SS' F]; subst. rewrite Forall_forall in F. pose proof (GE (x0, y0) (or_introl eq_refl)) as G0. cbn [fst snd] in G0.
    destruct ((x0 =? i) && (y0 =? j)) eqn:Q.
    + apply andb_true_iff in Q as [Q1 Q2]. apply Nat.eqb_eq in Q1, Q2. subst x0 y0. apply IH; try lia; [exact SS'| |].
      * intros p Hp. apply F in Hp. cbn [fst snd] in Hp. lia.
      * intros t Lt Ht. destruct (IN t Lt ltac:(lia)) as [R|R]; [injection R as R1 R2; lia|exact R].
    + unfold run. destruct (Nat.ltb_spec a i); [|lia]. cbn [app nth_error]. eexists. split; [reflexivity|]. exists a, i, b, j. split; [reflexivity|].
      assert (x + n <= i).
      { destruct (le_lt_dec (x + n) i) as [L|L]; [exact L|exfalso]. destruct (IN (i - x) ltac:(lia) ltac:(lia)) as [R|R].
        - injection R as -> ->. replace (x + (i - x)) with i in Q by lia. replace (y + (i - x)) with j in Q by lia. rewrite !Nat.eqb_refl in Q. discriminate.
        - apply F in R. cbn [fst snd] in R. lia. }
      lia.
Qed.

Lemma run_found : forall P a b i j N M x y n, StronglySorted (fun p q : nat * nat => fst p < fst q /\ snd p < snd q) P ->
  (forall p, In p P -> i <= fst p /\ j <= snd p) -> a <= i -> i + b = j + a -> 1 <= n -> (forall t, t < n -> In (x + t, y + t) P) ->
  exists k s, nth_error (stretches a b i j N M P) k = Some s /\ run_with x y n s.
Proof.
  induction P as [|[x0 y0] P IH]; intros a b i j N M x y n SS GE LA E L1 IN; [destruct (IN 0 L1)|].
  inversion SS as [|? ? SS' F]; subst. rewrite Forall_forall in F. cbn [stretches].
  assert (G' : forall p, In p P -> S x0 <= fst p /\ S y0 <= snd p) by (intros p Hp; apply F in Hp; cbn [fst snd] in Hp; lia).
  destruct (IN 0 L1) as [Q|Q].
  - rewrite !Nat.add_0_r in Q. injection Q as -> ->.
    assert (IN' : forall t, t < n -> S x <= x + t -> In (x + t, y + t) P).
    { intros t Lt Ht. destruct (IN t Lt) as [R|R]; [injection R as R1 R2; lia|exact R]. }
    destruct ((x =? i) && (y =? j)) eqn:Q.
    + apply andb_true_iff in Q as [Q1 Q2]. apply Nat.eqb_eq in Q1, Q2. subst i j.
      destruct (run_goes_on P a b (S x) (S y) N M x y n) as [s [S1 S2]]; try lia; auto. exists 0, s. auto.
    + destruct (run_goes_on P x y (S x) (S y) N M x y n) as [s [S1 S2]]; try lia; auto.
      exists (length (run a i b j ++ unpaired i x j y) + 0), s. split; [|exact S2]. rewrite app_assoc, nth_app_r. exact S1.
  - assert (IN' : forall t, t < n -> In (x + t, y + t) P).
    { intros t Lt. destruct (IN t Lt) as [R|R]; [|exact R]. injection R as -> ->. apply F in Q. cbn [fst snd] in Q. lia. }
    destruct ((x0 =? i) && (y0 =? j)) eqn:Q'.
    + apply andb_true_iff in Q' as [Q1 Q2]. apply Nat.eqb_eq in Q1, Q2. subst i j. apply IH; try lia; auto.
    + destruct (IH x0 y0 (S x0) (S y0) N M x y n) as [k [s [S1 S2]]]; try lia; auto.
      exists (length (run a i b j ++ unpaired i x0 j y0) + k), s. split; [|exact S2]. rewrite app_assoc, nth_app_r. exact S1.
Qed.

Lemma part_of : forall (l : list str) a i X u Y ws, l = X ++ u ++ Y -> a <= length X -> length X + length u <= i ->
  map Some ws = map (nth_error l) (seq a (i - a)) -> exists before after, ws = before ++ u ++ after.
Proof.
  intros l a i X u Y ws -> La Li E.
  replace (i - a) with ((length X - a) + (length u + (i - length X - length u))) in E by lia. rewrite !seq_app, !map_app in E.
  apply map_eq_app in E as [b1 [r1 [-> [_ E]]]]. apply map_eq_app in E as [b2 [r2 [-> [E _]]]].
  exists b1, r2. f_equal. f_equal. replace (a + (length X - a)) with (length X) in E by lia.
  apply list_ext. intros k. destruct (le_lt_dec (length u) k) as [L|L].
  - assert (L2 : length b2 = length u) by (apply (f_equal (@length _)) in E; rewrite !map_length, seq_length in E; exact E).
    rewrite !(proj2 (nth_error_None _ _)) by lia. reflexivity.
  - apply (f_equal (fun z => nth_error z k)) in E. rewrite !nth_error_map, (nth_error_nth' (seq _ _) 0), seq_nth in E by (try rewrite seq_length; lia).
    cbn [option_map] in E. rewrite mid_nth in E by exact L. destruct (nth_error b2 k); cbn [option_map] in E; congruence.
Qed.
