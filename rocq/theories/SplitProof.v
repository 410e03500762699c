(** A common passage that is aligned cuts the alignment of two texts in two. *)
From Verif Require Import Py Lib TokenModel IndexModel GraphModel TableModel GraphSpec TableSpec WalkSpec WalkProof PairSpec PairProof
  ChosenSpec ChosenProof CommonSpec CommonProof PassageProof SplitSpec.
From Coq Require Import Sorted.
Open Scope list_scope.
Open Scope nat_scope.

(** ** Parts of best walks *)
Lemma walk_mono : forall M r p, at_token (walk M p) <= at_token (walk M (p ++ r)) /\ at_rank (walk M p) <= at_rank (walk M (p ++ r)).
Proof.
  intros M. induction r as [|m r IH] using rev_ind; intros p; [rewrite app_nil_r; lia|]. rewrite app_assoc, walk_snoc. specialize (IH p).
  destruct m; cbn [step at_token at_rank]; lia.
Qed.

Lemma walk_local : forall M M' a b, (forall y x, y <= a -> x <= b -> M y x = M' y x) -> forall ms, at_token (walk M ms) <= a -> at_rank (walk M ms) <= b -> walk M ms = walk M' ms.
Proof.
  intros M M' a b H. induction ms as [|m ms IH] using rev_ind; intros La Lb; [reflexivity|].
  pose proof (walk_mono M [m] ms) as [L1 L2]. rewrite !walk_snoc in *. rewrite <- IH by lia. unfold step in *.
  destruct m; cbn [at_token at_rank is_hit] in *; rewrite ?H by lia; reflexivity.
Qed.

Lemma best_prefix : forall M r p, the_best M (p ++ r) -> the_best M p.
Proof. intros M. induction r as [|m r IH] using rev_ind; intros p H; [rewrite app_nil_r in H; exact H|]. rewrite app_assoc in H. apply IH. apply best_front in H. exact H. Qed.
Lemma pref_prefix : forall M r p, preferred M (p ++ r) -> preferred M p.
Proof. intros M r p H before m after E. subst p. apply (H before m (after ++ r)). rewrite <- app_assoc. reflexivity. Qed.

Lemma the_way : forall M y x ms, ends M ms y x -> the_best M ms -> preferred M ms -> ms = snd (best_way M y x).
Proof. intros M y x ms E B P. destruct (best_way_good M y x) as [E' [_ [B' P']]]. exact (one_way M ms _ y x E E' B B' P P'). Qed.

Lemma front_way : forall M M' a b p r, (forall y x, y <= a -> x <= b -> M y x = M' y x) -> ends M p a b -> the_best M (p ++ r) -> preferred M (p ++ r) ->
  p = snd (best_way M' a b) /\ walk M p = walk M' p.
Proof.
  intros M M' a b p r H [E1 E2] B P.
  assert (LC : forall ms, at_token (walk M ms) <= a -> at_rank (walk M ms) <= b -> walk M ms = walk M' ms) by (apply walk_local; exact H).
  assert (LC' : forall ms, at_token (walk M' ms) <= a -> at_rank (walk M' ms) <= b -> walk M ms = walk M' ms).
  { intros ms L1 L2. symmetry. apply (walk_local M' M a b); auto. intros; symmetry; auto. }
  apply best_prefix in B. apply pref_prefix in P. assert (W : walk M p = walk M' p) by (apply LC; lia). split; [|exact W]. apply the_way.
  - split; congruence.
  - intros ms' y x [F1 F2] [G1 G2]. rewrite <- W in F1, F2. rewrite <- W. rewrite <- LC' by lia. apply (B ms' y x); [split; assumption|]. split; rewrite LC' by lia; assumption.
  - intros before m after E m' SO other Q1 Q2. subst p. pose proof (walk_mono M after (before ++ [m])) as MO. rewrite <- app_assoc in MO. cbn [app] in MO.
    assert (WB : walk M (before ++ [m]) = walk M' (before ++ [m])) by (apply LC; lia).
    assert (WO : walk M (other ++ [m']) = walk M' (other ++ [m'])) by (apply LC'; rewrite ?Q1, ?Q2, <- WB; lia).
    rewrite <- WB in *. rewrite <- WO in *. apply (P before m after eq_refl m' SO other Q1 Q2).
Qed.

Lemma back_way : forall M a b p r y x, (forall y x, M y x = true -> M (S y) x = false) -> ends M p a b -> ends M (p ++ r) (a + y) (b + x) ->
  the_best M (p ++ r) -> preferred M (p ++ r) -> r = snd (best_way (from_here M a b) y x).
Proof.
  intros M a b p r y x ND [E1 E2] [F1 F2] B P. destruct (here_walk M a b ND p r E1 E2) as [H1 [H2 H3]].
  apply the_way.
  - split; lia.
  - intros q y' x' [Q1 Q2] [Q3 Q4]. destruct (here_walk M a b ND p q E1 E2) as [K1 [K2 K3]].
    assert (X := B (p ++ q) (a + y) (b + x)). unfold ends in X. specialize (X ltac:(lia) ltac:(lia)). lia.
  - intros before m after E m' SO other Q1 Q2. subst r.
    destruct (here_walk M a b ND p (before ++ [m]) E1 E2) as [K1 [K2 K3]]. destruct (here_walk M a b ND p (other ++ [m']) E1 E2) as [L1 [L2 L3]].
    assert (X := P (p ++ before) m after). rewrite <- app_assoc in X. specialize (X eq_refl m' SO (p ++ other)). rewrite <- !app_assoc in X. specialize (X ltac:(lia) ltac:(lia)). lia.
Qed.

Lemma here_met : forall M a b, (forall y x, M y x = true -> M (S y) x = false) -> forall p q, at_token (walk M p) = a -> at_rank (walk M p) = b ->
  met (walk M (p ++ q)) = met (walk M p) ++ map (fun z => (a + fst z, b + snd z)) (met (walk (from_here M a b) q)).
Proof.
  intros M a b ND p q A B. induction q as [|m q IH] using rev_ind; [rewrite !app_nil_r; reflexivity|].
  destruct (here_walk M a b ND p q A B) as [I1 [I2 _]]. rewrite app_assoc, !walk_snoc.
  assert (F : forall y x, from_here M a b (S y - 1) x && from_here M a b (S y) x = false).
  { intros [|y] [|x]; try reflexivity. cbn [from_here Nat.sub]. replace (a + S (S y)) with (S (a + S y)) by lia.
    destruct (M (a + S y) (b + S x)) eqn:E; [apply ND; exact E|reflexivity]. }
  unfold step. destruct m; cbn [met is_hit]; rewrite ?(no_add M ND), ?F, ?I1, ?I2; [|exact IH|exact IH].
  cbn [from_here]. rewrite <- !Nat.add_succ_r. destruct (M _ _); [|exact IH]. rewrite IH, map_app, app_assoc. reflexivity.
Qed.

Lemma diagonal_met : forall M a b n, (forall i, 1 <= i <= n -> M (a + i) (b + i) = true) -> forall k p, k <= n -> at_token (walk M p) = a -> at_rank (walk M p) = b ->
  met (walk M (p ++ repeat Pair k)) = met (walk M p) ++ map (fun i => (a + S i, b + S i)) (seq 0 k).
Proof.
  intros M a b n DG. induction k as [|k IH]; intros p L A B; [cbn [repeat seq map]; rewrite !app_nil_r; reflexivity|].
  destruct (along M a b n DG k p ltac:(lia) A B) as [C [D _]].
  replace (repeat Pair (S k)) with (repeat Pair k ++ [Pair]) by (symmetry; apply repeat_cons). rewrite app_assoc, walk_snoc. unfold step. cbn [met is_hit].
  rewrite C, D. rewrite <- !Nat.add_succ_r. rewrite DG by lia. rewrite IH by (auto; lia). rewrite seq_S, map_app, app_assoc. reflexivity.
Qed.

(** ** The chosen pairs *)
Lemma unfiltered : forall M, (forall y x, M y x = true -> M (S y) x = false) -> forall ms, let l := met (walk M ms) in
  filter (fun p => negb (existsb (fun q => (snd q =? snd p) && (fst p <? fst q)) l)) l = l.
Proof.
  intros M ND ms l. assert (I : forall y y' x, In (y, x) l -> In (y', x) l -> y = y').
  { intros y y' x H1 H2. unfold l in *. rewrite (walk_plain M ND) in H1, H2. exact (plain_met_inj M ms y y' x H1 H2). }
  assert (F : forall l', incl l' l -> filter (fun p => negb (existsb (fun q => (snd q =? snd p) && (fst p <? fst q)) l)) l' = l').
  { induction l' as [|[y x] l' IH]; intros IN; [reflexivity|]. cbn [filter]. rewrite IH by (intros z Hz; apply IN; right; exact Hz).
    destruct (existsb _ l) eqn:E; [|reflexivity]. exfalso. apply existsb_exists in E as [[y' x'] [E1 E2]]. cbn [fst snd] in E2.
    apply andb_true_iff in E2 as [E2 E3]. apply Nat.eqb_eq in E2. apply Nat.ltb_lt in E3. subst x'. pose proof (I y y' x (IN _ (or_introl eq_refl)) E1). lia. }
  apply F. apply incl_refl.
Qed.

Lemma no_twice : forall a b, no_doublets b -> forall y x, same_word a b y x = true -> same_word a b (S y) x = false.
Proof.
  intros a b N y x H. destruct (same_word a b (S y) x) eqn:E; [|reflexivity]. apply same_word_iff in H as [s [H1 [_ [H2 H3]]]]. apply same_word_iff in E as [s' [_ [_ [E2 E3]]]].
  exfalso. apply (N (y - 1) s H2). replace (S (y - 1)) with (S y - 1) by lia. congruence.
Qed.

Lemma doublets_part : forall x y z : list str, no_doublets (x ++ y ++ z) -> no_doublets y.
Proof.
  intros x y z N i s H1 H2. assert (L : S i < length y) by (apply nth_error_Some; congruence). apply (N (length x + i) s); [rewrite mid_nth by lia; exact H1|].
  rewrite <- Nat.add_succ_r, mid_nth by lia. exact H2.
Qed.

Theorem split_pairs : forall X1 X2 u Y1 Y2, let A := X1 ++ u ++ Y1 in let B := X2 ++ u ++ Y2 in
  (forall s, In s u -> unrepeated s A) -> (forall s, In s u -> unrepeated s B) -> no_doublets B -> long_or_outer X1 X2 u Y1 Y2 ->
  chosen_pairs A B = chosen_pairs X1 X2 ++ map (fun i => (length X1 + i, length X2 + i)) (seq 0 (length u)) ++
    map (further (length X1 + length u) (length X2 + length u)) (chosen_pairs Y1 Y2).
Proof.
  intros X1 X2 u Y1 Y2 A B UA UB NDB LN.
  assert (LA : length A = length X1 + length u + length Y1) by (unfold A; rewrite !app_length; lia).
  assert (LB : length B = length X2 + length u + length Y2) by (unfold B; rewrite !app_length; lia).
  assert (AT : forall i, 1 <= i <= length u -> exists s, In s u /\ nth_error A (length X1 + i - 1) = Some s /\ nth_error B (length X2 + i - 1) = Some s).
  { intros i Hi. destruct (nth_error u (i - 1)) as [s|] eqn:E; [|apply nth_error_None in E; lia]. exists s. split; [apply nth_error_In in E; exact E|].
    replace (length X1 + i - 1) with (length X1 + (i - 1)) by lia. replace (length X2 + i - 1) with (length X2 + (i - 1)) by lia.
    unfold A, B. rewrite !mid_nth by lia. auto. }
  set (M := same_word A B).
  assert (ND : forall y x, M y x = true -> M (S y) x = false) by (apply no_twice; exact NDB).
  assert (DG : forall i, 1 <= i <= length u -> M (length X2 + i) (length X1 + i) = true).
  { intros i Hi. destruct (AT i Hi) as [s [_ [H1 H2]]]. apply same_word_iff. exists s. split; [lia|]. split; [lia|]. auto. }
  assert (UP : forall i x, 1 <= i <= length u -> M (length X2 + i) x = true -> x = length X1 + i).
  { intros i x Hi H. apply same_word_iff in H as [s [_ [Hx [H2 H3]]]]. destruct (AT i Hi) as [s' [I' [H4 H5]]]. assert (s' = s) by congruence. subst s'.
    pose proof (UA s I' _ _ H3 H4). lia. }
  assert (UR : forall i y, 1 <= i <= length u -> M y (length X1 + i) = true -> y = length X2 + i).
  { intros i y Hi H. apply same_word_iff in H as [s [Hy [_ [H2 H3]]]]. destruct (AT i Hi) as [s' [I' [H4 H5]]]. assert (s' = s) by congruence. subst s'.
    pose proof (UB s I' _ _ H2 H5). lia. }
  set (ms := snd (best_way M (length B) (length A))).
  destruct (best_way_good M (length B) (length A)) as [[G1 G2] [_ [G3 G4]]]. fold ms in G1, G2, G3, G4.
  destruct (through M (length X2) (length X1) (length u) ND DG UP UR ms (length A) (length B)) as [p [r [E [P1 P2]]]];
    [split; [split; assumption|split; [reflexivity|split; assumption]]|lia|lia| |].
  { destruct LN as [LN|[[-> ->]|[-> ->]]]; [left; rewrite LA, LB; lia|right; left; split; reflexivity|right; right; cbn [length] in LA, LB; lia]. }
  assert (FR := front_way M (same_word X1 X2) (length X2) (length X1) p (repeat Pair (length u) ++ r)). rewrite <- E in FR.
  destruct FR as [F1 F2]; [|split; assumption|exact G3|exact G4|].
  { intros [|y] [|x] Hy Hx; try reflexivity. unfold M, A, B. cbn [same_word]. rewrite !nth_error_app1 by lia. reflexivity. }
  destruct (along M (length X2) (length X1) (length u) DG (length u) p (le_n _) P1 P2) as [D1 [D2 _]].
  assert (HERE : forall y x, from_here M (length X2 + length u) (length X1 + length u) y x = same_word Y1 Y2 y x).
  { intros [|y] [|x]; try reflexivity. unfold M, A, B. cbn [from_here]. rewrite !Nat.add_succ_r. cbn [same_word]. rewrite !app_assoc.
    rewrite <- !app_length. rewrite !nth_app_r. reflexivity. }
  assert (BK := back_way M (length X2 + length u) (length X1 + length u) (p ++ repeat Pair (length u)) r (length Y2) (length Y1) ND). rewrite <- app_assoc, <- E in BK.
  specialize (BK ltac:(split; assumption) ltac:(split; lia) G3 G4).
  assert (BW : snd (best_way (from_here M (length X2 + length u) (length X1 + length u)) (length Y2) (length Y1)) = snd (best_way (same_word Y1 Y2) (length Y2) (length Y1))).
  { destruct (best_way_good (from_here M (length X2 + length u) (length X1 + length u)) (length Y2) (length Y1)) as [Q1 [_ [Q2 Q3]]].
    assert (WE : forall q, walk (from_here M (length X2 + length u) (length X1 + length u)) q = walk (same_word Y1 Y2) q) by (intros q; apply walk_ext; exact HERE).
    apply the_way.
    - destruct Q1 as [Q1 Q1']. split; rewrite <- WE; assumption.
    - intros q y x [R1 R2] [R3 R4]. rewrite <- !WE in *. apply (Q2 q y x); split; assumption.
    - intros before m after Eb m' SO other R1 R2. rewrite <- !WE in *. apply (Q3 before m after Eb m' SO other R1 R2). }
  rewrite BW in BK.
  unfold chosen_pairs. fold M. fold ms. rewrite (unfiltered M ND ms).
  rewrite (unfiltered (same_word X1 X2)) by (apply no_twice; apply (doublets_part [] X2 (u ++ Y2)); exact NDB).
  assert (NY : no_doublets Y2) by (apply (doublets_part (X2 ++ u) Y2 []); rewrite app_nil_r, <- app_assoc; exact NDB).
  rewrite (unfiltered (same_word Y1 Y2)) by (apply no_twice; exact NY).
  rewrite <- F1, <- BK. rewrite E, app_assoc.
  rewrite (here_met M _ _ ND (p ++ repeat Pair (length u)) r D1 D2). rewrite (diagonal_met M (length X2) (length X1) (length u) DG (length u) p (le_n _) P1 P2).
  rewrite F2, (walk_ext _ _ HERE). rewrite !map_app, !map_map, <- app_assoc. f_equal. f_equal.
  - apply map_ext. intros i. cbn [fst snd]. f_equal; lia.
  - apply map_ext_in. intros [y x] H. apply met_bounds in H as [_ [_ H]]. apply same_word_iff in H as [s [H1 [H2 _]]]. cbn [fst snd further]. unfold further. cbn [fst snd]. f_equal; lia.
Qed.

(** ** The columns *)
Lemma layout_app : forall P i j N M x y Q, layout i j N M (P ++ (x, y) :: Q) = layout i j x y P ++ (Some x, Some y) :: layout (S x) (S y) N M Q.
Proof.
  induction P as [|[x0 y0] P IH]; intros i j N M x y Q; cbn [app layout]; [reflexivity|]. rewrite IH, <- app_assoc. reflexivity.
Qed.
Lemma layout_diagonal : forall n x y N M Q, layout x y N M (map (fun i => (x + i, y + i)) (seq 0 n) ++ Q) =
  map (fun i => (Some (x + i), Some (y + i))) (seq 0 n) ++ layout (x + n) (y + n) N M Q.
Proof.
  induction n as [|n IH]; intros x y N M Q; [cbn [seq map app]; rewrite !Nat.add_0_r; reflexivity|].
  cbn [seq map app layout]. rewrite !Nat.add_0_r. unfold gap at 1. rewrite !Nat.sub_diag. cbn [Nat.max seq map app]. f_equal.
  rewrite <- seq_shift, !map_map. specialize (IH (S x) (S y) N M Q). replace (S x + n) with (x + S n) in IH by lia. replace (S y + n) with (y + S n) in IH by lia.
  rewrite (map_ext (fun i => (x + S i, y + S i)) (fun i => (S x + i, S y + i))) by (intros; f_equal; lia). rewrite IH. f_equal.
  apply map_ext. intros i. f_equal; f_equal; lia.
Qed.
Definition moved_by (a b : nat) (c : option nat * option nat) : option nat * option nat := (option_map (Nat.add a) (fst c), option_map (Nat.add b) (snd c)).
Lemma gap_shift : forall a b i x j y, gap (a + i) (a + x) (b + j) (b + y) = map (moved_by a b) (gap i x j y).
Proof.
  intros a b i x j y. unfold gap. rewrite map_map. replace (a + x - (a + i)) with (x - i) by lia. replace (b + y - (b + j)) with (y - j) by lia.
  apply map_ext. intros k. unfold moved_by. cbn [fst snd].
  destruct (Nat.ltb_spec (a + i + k) (a + x)), (Nat.ltb_spec (i + k) x), (Nat.ltb_spec (b + j + k) (b + y)), (Nat.ltb_spec (j + k) y); try lia; cbn [option_map]; rewrite <- ?Nat.add_assoc; reflexivity.
Qed.
Lemma layout_shift : forall a b P i j N M, layout (a + i) (b + j) (a + N) (b + M) (map (further a b) P) = map (moved_by a b) (layout i j N M P).
Proof.
  intros a b. induction P as [|[x y] P IH]; intros i j N M; cbn [map layout]; [apply gap_shift|]. unfold further at 1. cbn [fst snd].
  rewrite map_app. cbn [map]. rewrite <- !Nat.add_succ_r, IH, gap_shift. reflexivity.
Qed.

Lemma split_layout : forall P Q x y u Y1 Y2, 1 <= u ->
  layout 0 0 (x + u + Y1) (y + u + Y2) (P ++ map (fun i => (x + i, y + i)) (seq 0 u) ++ map (further (x + u) (y + u)) Q) =
  layout 0 0 x y P ++ map (fun i => (Some (x + i), Some (y + i))) (seq 0 u) ++ map (moved_by (x + u) (y + u)) (layout 0 0 Y1 Y2 Q).
Proof.
  intros P Q x y u Y1 Y2 L. pose proof (layout_diagonal u x y (x + u + Y1) (y + u + Y2) (map (further (x + u) (y + u)) Q)) as D.
  destruct u as [|u]; [lia|]. cbn [seq map app] in D |- *. cbn [layout] in D. rewrite layout_app. rewrite !Nat.add_0_r in *. unfold gap in D at 1. rewrite !Nat.sub_diag in D. cbn [Nat.max seq map app] in D.
  f_equal. rewrite D. f_equal. f_equal. pose proof (layout_shift (x + S u) (y + S u) Q 0 0 Y1 Y2) as SH. rewrite !Nat.add_0_r in SH. exact SH.
Qed.

(** ** The readings *)
Definition reading_at (l : list str) (o : option nat) : option (list str) := match o with Some i => option_map (fun s => [s]) (nth_error l i) | None => None end.

Lemma shown_reading : forall w os cs, Forall2 (shows w) os cs -> map (option_map (map tk_str)) cs = map (reading_at (PairSpec.readings w)) os /\
  forall i, In (Some i) os -> i < length (PairSpec.readings w).
Proof.
  intros w os cs F. induction F as [|o c os cs S F [I1 I2]]; [split; [reflexivity|intros i []]|]. cbn [map]. rewrite I1.
  destruct o as [i|], c as [ts|]; cbn [shows] in S; try contradiction.
  - destruct S as [t0 [t [T1 [-> [T2 _]]]]]. cbn [reading_at option_map map]. assert (NE : nth_error (PairSpec.readings w) i = Some (t0_str t0)) by (unfold PairSpec.readings; apply map_nth_error; exact T1). rewrite NE. cbn [option_map]. rewrite T2. split; [reflexivity|].
    intros k [K|K]; [injection K as <-|apply I2; exact K]. unfold PairSpec.readings. rewrite map_length. apply nth_error_Some. congruence.
  - split; [reflexivity|]. intros k [K|K]; [discriminate|apply I2; exact K].
Qed.

Lemma front_reading : forall X R os, (forall i, In (Some i) os -> i < length X) -> map (reading_at (X ++ R)) os = map (reading_at X) os.
Proof.
  intros X R os H. apply map_ext_in. intros [i|] Hi; [|reflexivity]. cbn [reading_at]. rewrite nth_error_app1 by (apply H; exact Hi). reflexivity.
Qed.
Lemma middle_reading : forall X u Y, map (reading_at (X ++ u ++ Y)) (map (fun i => Some (length X + i)) (seq 0 (length u))) = map (fun s => Some [s]) u.
Proof.
  intros X u Y. rewrite map_map. apply list_ext. intros k. rewrite !nth_error_map. destruct (nth_error u k) as [s|] eqn:E.
  - assert (L : k < length u) by (apply nth_error_Some; congruence). rewrite (nth_error_nth' _ 0) by (rewrite seq_length; exact L). rewrite seq_nth by exact L.
    cbn [option_map Nat.add reading_at]. rewrite mid_nth, E by exact L. reflexivity.
  - apply nth_error_None in E. rewrite (proj2 (nth_error_None _ _)) by (rewrite seq_length; exact E). reflexivity.
Qed.
Lemma back_reading : forall X u Y os, map (reading_at (X ++ u ++ Y)) (map (option_map (Nat.add (length X + length u))) os) = map (reading_at Y) os.
Proof.
  intros X u Y os. rewrite map_map. apply map_ext. intros [i|]; [|reflexivity]. cbn [option_map reading_at]. rewrite app_assoc, <- app_length, nth_app_r. reflexivity.
Qed.

(** ** Which columns are variant *)
Definition paired (P : list (nat * nat)) (c : option nat * option nat) : bool :=
  match c with (Some x, Some y) => existsb (fun p => (fst p =? x) && (snd p =? y)) P | _ => false end.
Lemma paired_iff : forall P c, paired P c = true <-> exists x y, c = (Some x, Some y) /\ In (x, y) P.
Proof.
  intros P [[x|] [y|]]; cbn [paired]; try (split; [discriminate|intros [a [b [H _]]]; discriminate]). rewrite existsb_exists. split.
  - intros [[a b] [H1 H2]]. cbn [fst snd] in H2. apply andb_true_iff in H2 as [H2 H3]. apply Nat.eqb_eq in H2, H3. subst. eauto.
  - intros [a [b [E H]]]. injection E as <- <-. exists (x, y). cbn [fst snd]. rewrite !Nat.eqb_refl. auto.
Qed.
Lemma variant_list : forall P C cols, Forall2 (fun c col => c_variant col = false <-> exists x y, c = (Some x, Some y) /\ In (x, y) P) C cols ->
  map c_variant cols = map (fun c => negb (paired P c)) C.
Proof.
  intros P C cols F. induction F as [|c col C cols H F IH]; [reflexivity|]. cbn [map]. rewrite IH. f_equal. rewrite <- paired_iff in H.
  destruct (paired P c), (c_variant col); try reflexivity; cbn [negb]; [destruct H as [_ H]|destruct H as [H _]]; rewrite H by reflexivity; reflexivity.
Qed.
Lemma paired_parts : forall P x y n Q a b, (forall p, In p P -> fst p < x) ->
  let F := P ++ map (fun i => (x + i, y + i)) (seq 0 n) ++ map (further (x + n) (y + n)) Q in
  (forall c, (forall i, fst c = Some i -> i < x) -> paired F c = paired P c) /\
  (forall i, i < n -> paired F (Some (x + i), Some (y + i)) = true) /\
  paired F (moved_by (x + n) (y + n) (a, b)) = paired Q (a, b).
Proof.
  intros P x y n Q a b LP F.
  assert (EX : forall c d, (paired F c = true <-> paired Q d = true) -> paired F c = paired Q d) by (intros c d H; destruct (paired F c), (paired Q d); intuition).
  assert (IN : forall p q, In (p, q) F <-> In (p, q) P \/ (exists i, i < n /\ p = x + i /\ q = y + i) \/ exists p' q', In (p', q') Q /\ p = x + n + p' /\ q = y + n + q').
  { intros p q. unfold F. rewrite !in_app_iff, !in_map_iff. split.
    - intros [H|[[i [H1 H2]]|[[p' q'] [H1 H2]]]]; [auto| |]; right.
      + left. apply in_seq in H2. injection H1 as <- <-. exists i. lia.
      + right. unfold further in H1. cbn [fst snd] in H1. injection H1 as <- <-. eauto.
    - intros [H|[[i [H1 [-> ->]]]|[p' [q' [H1 [-> ->]]]]]]; [auto| |]; right; [left|right].
      + exists i. split; [reflexivity|]. apply in_seq. lia.
      + exists (p', q'). split; [reflexivity|exact H1]. }
  split; [|split].
  - intros c Hc. destruct (paired P c) eqn:E.
    + apply paired_iff in E as [p [q [-> H]]]. apply paired_iff. exists p, q. split; [reflexivity|]. apply IN. auto.
    + destruct (paired F c) eqn:E2; [|reflexivity]. apply paired_iff in E2 as [p [q [-> H]]]. specialize (Hc p eq_refl). apply IN in H as [H|[[i [_ [-> _]]]|[p' [q' [_ [-> _]]]]]]; [|lia|lia].
      rewrite <- E. symmetry. apply paired_iff. eauto.
  - intros i Hi. apply paired_iff. exists (x + i), (y + i). split; [reflexivity|]. apply IN. right. left. eauto.
  - apply EX. rewrite !paired_iff. unfold moved_by. cbn [fst snd]. split.
    + intros [p [q [E H]]]. destruct a as [a|], b as [b|]; try discriminate. cbn [option_map] in E. injection E as <- <-. exists a, b. split; [reflexivity|].
      apply IN in H as [H|[[i [L [E1 _]]]|[p' [q' [H [E1 E2]]]]]]; [apply LP in H; cbn [fst] in H; lia|lia|]. replace a with p' by lia. replace b with q' by lia. exact H.
    + intros [p [q [E H]]]. injection E as -> ->. cbn [option_map]. eexists _, _. split; [reflexivity|]. apply IN. right. right. eauto.
Qed.
