(** Proofs for C111 with near matching: the columns of [near_layout] on both sides of a common passage. *)
From Verif Require Import Py TokenModel IndexModel GraphModel TableModel Lib PairSpec NearTableSpec SplitSpec SplitProof.
From Coq Require Import QArith Lia Arith.
Open Scope list_scope.
Open Scope nat_scope.

Lemma best_range : forall f lo hi, lo < hi -> lo <= best f lo hi < hi.
Proof.
  intros f lo hi L. unfold best.
  assert (G : forall l b, lo <= b < hi -> (forall c, In c l -> lo <= c < hi) -> lo <= fold_left (fun b c => if Qle_bool (f c) (f b) then b else c) l b < hi).
  { induction l as [|c l IH]; intros b B H; [exact B|]. cbn [fold_left]. apply IH; [|intros d D; apply H; right; exact D].
    destruct (Qle_bool (f c) (f b)); [exact B|apply H; left; reflexivity]. }
  apply G; [lia|]. intros c C. apply in_seq in C. lia.
Qed.
Lemma best_ext : forall f g lo hi, (forall c, lo <= c < hi -> f c = g c) -> lo < hi -> best f lo hi = best g lo hi.
Proof.
  intros f g lo hi E L. unfold best.
  assert (G : forall l b, lo <= b < hi -> (forall c, In c l -> lo <= c < hi) ->
    fold_left (fun b c => if Qle_bool (f c) (f b) then b else c) l b = fold_left (fun b c => if Qle_bool (g c) (g b) then b else c) l b).
  { induction l as [|c l IH]; intros b B H; [reflexivity|]. cbn [fold_left]. rewrite (E c) by (apply H; left; reflexivity). rewrite (E b) by exact B.
    apply IH; [|intros d D; apply H; right; exact D]. destruct (Qle_bool (g c) (g b)); [exact B|apply H; left; reflexivity]. }
  apply G; [lia|]. intros c C. apply in_seq in C. lia.
Qed.
Lemma standing_ext : forall p f g hi, p <= hi -> (forall k c, k < p -> c < hi -> f k c = g k c) -> standing f p hi = standing g p hi.
Proof.
  induction p as [|k IH]; intros f g hi L E; [reflexivity|]. cbn [standing].
  assert (B : best (f k) k hi = best (g k) k hi) by (apply best_ext; [intros c C; apply E; lia|lia]).
  pose proof (best_range (g k) k hi ltac:(lia)) as R. rewrite B. f_equal. apply IH; [lia|]. intros a c A C. apply E; lia.
Qed.

Lemma in_column_shift : forall a c cs k, in_column c cs (a + k) = option_map (Nat.add a) (in_column c cs k).
Proof.
  intros a c. induction cs as [|d cs IH]; intros k; [reflexivity|]. cbn [in_column]. destruct (c =? d); [reflexivity|]. rewrite <- Nat.add_succ_r. apply IH.
Qed.

Lemma near_gap_ext : forall f g f' g' i x j y, (forall p q, i <= p < x -> j <= q < y -> f p q = f' p q) -> (forall q p, j <= q < y -> i <= p < x -> g q p = g' q p) ->
  near_gap f g i x j y = near_gap f' g' i x j y.
Proof.
  intros f g f' g' i x j y E1 E2. unfold near_gap. destruct (x - i <=? y - j) eqn:C.
  - apply Nat.leb_le in C. rewrite (standing_ext (x - i) _ (fun k d => f' (i + k) (j + d))); [reflexivity|exact C|]. intros k c K1 K2. apply E1; lia.
  - apply Nat.leb_gt in C. rewrite (standing_ext (y - j) _ (fun k d => g' (j + k) (i + d))); [reflexivity|lia|]. intros k c K1 K2. apply E2; lia.
Qed.
Lemma near_gap_shift : forall f g a b i x j y, near_gap f g (a + i) (a + x) (b + j) (b + y) =
  map (moved_by a b) (near_gap (fun p q => f (a + p) (b + q)) (fun q p => g (b + q) (a + p)) i x j y).
Proof.
  intros f g a b i x j y. unfold near_gap. replace (a + x - (a + i)) with (x - i) by lia. replace (b + y - (b + j)) with (y - j) by lia.
  destruct (x - i <=? y - j) eqn:C; rewrite map_map; apply map_ext; intros c; unfold moved_by; cbn [fst snd option_map]; rewrite in_column_shift.
  - apply Nat.leb_le in C. f_equal; [|f_equal; lia]. f_equal. f_equal. apply standing_ext; [exact C|]. intros k d _ _. rewrite !Nat.add_assoc. reflexivity.
  - apply Nat.leb_gt in C. f_equal; [f_equal; lia|]. f_equal. f_equal. apply standing_ext; [lia|]. intros k d _ _. rewrite !Nat.add_assoc. reflexivity.
Qed.

Lemma near_layout_ext : forall P f g f' g' i j n m, (forall p q, p < n -> q < m -> f p q = f' p q) -> (forall q p, q < m -> p < n -> g q p = g' q p) ->
  (forall p, In p P -> fst p < n /\ snd p < m) -> near_layout f g i j n m P = near_layout f' g' i j n m P.
Proof.
  induction P as [|[x y] P IH]; intros f g f' g' i j n m E1 E2 B; cbn [near_layout].
  - apply near_gap_ext; intros; [apply E1|apply E2]; lia.
  - destruct (B (x, y) (or_introl eq_refl)) as [B1 B2]. cbn [fst snd] in B1, B2. f_equal; [apply near_gap_ext; intros; [apply E1|apply E2]; lia|]. f_equal.
    apply IH; [exact E1|exact E2|]. intros p Hp. apply B. right. exact Hp.
Qed.
Lemma near_layout_all : forall Q f1 g1 f2 g2 i j n m, (forall p q, f1 p q = f2 p q) -> (forall q p, g1 q p = g2 q p) -> near_layout f1 g1 i j n m Q = near_layout f2 g2 i j n m Q.
Proof.
  intros Q f1 g1 f2 g2 i j n m E1 E2. revert i j. induction Q as [|[a b] Q' IH]; intros i j; cbn [near_layout].
  - apply near_gap_ext; intros; [apply E1|apply E2].
  - f_equal; [apply near_gap_ext; intros; [apply E1|apply E2]|]. f_equal. apply IH.
Qed.
Lemma near_layout_app : forall f g P i j N M x y Q, near_layout f g i j N M (P ++ (x, y) :: Q) = near_layout f g i j x y P ++ (Some x, Some y) :: near_layout f g (S x) (S y) N M Q.
Proof.
  intros f g. induction P as [|[x0 y0] P IH]; intros i j N M x y Q; cbn [app near_layout]; [reflexivity|]. rewrite IH, <- app_assoc. reflexivity.
Qed.
Lemma near_layout_diagonal : forall f g n x y N M Q, near_layout f g x y N M (map (fun i => (x + i, y + i)) (seq 0 n) ++ Q) =
  map (fun i => (Some (x + i), Some (y + i))) (seq 0 n) ++ near_layout f g (x + n) (y + n) N M Q.
Proof.
  intros f g. induction n as [|n IH]; intros x y N M Q; [cbn [seq map app]; rewrite !Nat.add_0_r; reflexivity|].
  cbn [seq map app near_layout]. rewrite !Nat.add_0_r. unfold near_gap at 1. rewrite !Nat.sub_diag. cbn [Nat.leb seq map app]. f_equal.
  rewrite <- seq_shift, !map_map. specialize (IH (S x) (S y) N M Q). replace (S x + n) with (x + S n) in IH by lia. replace (S y + n) with (y + S n) in IH by lia.
  rewrite (map_ext (fun i => (x + S i, y + S i)) (fun i => (S x + i, S y + i))) by (intros; f_equal; lia). rewrite IH. f_equal.
  apply map_ext. intros i. f_equal; f_equal; lia.
Qed.
Lemma near_layout_shift : forall f g a b P i j N M, near_layout f g (a + i) (b + j) (a + N) (b + M) (map (further a b) P) =
  map (moved_by a b) (near_layout (fun p q => f (a + p) (b + q)) (fun q p => g (b + q) (a + p)) i j N M P).
Proof.
  intros f g a b. induction P as [|[x y] P IH]; intros i j N M; cbn [map near_layout]; [apply near_gap_shift|]. unfold further at 1. cbn [fst snd].
  rewrite map_app. cbn [map]. rewrite <- !Nat.add_succ_r, IH, near_gap_shift. reflexivity.
Qed.

Lemma near_split_layout : forall ratio X1 X2 u Y1 Y2 P Q, u <> [] -> (forall p, In p P -> fst p < length X1 /\ snd p < length X2) ->
  near_layout (likeness ratio (X1 ++ u ++ Y1) (X2 ++ u ++ Y2)) (likeness ratio (X2 ++ u ++ Y2) (X1 ++ u ++ Y1)) 0 0
    (length (X1 ++ u ++ Y1)) (length (X2 ++ u ++ Y2))
    (P ++ map (fun i => (length X1 + i, length X2 + i)) (seq 0 (length u)) ++ map (further (length X1 + length u) (length X2 + length u)) Q) =
  near_layout (likeness ratio X1 X2) (likeness ratio X2 X1) 0 0 (length X1) (length X2) P ++
  map (fun i => (Some (length X1 + i), Some (length X2 + i))) (seq 0 (length u)) ++
  map (moved_by (length X1 + length u) (length X2 + length u)) (near_layout (likeness ratio Y1 Y2) (likeness ratio Y2 Y1) 0 0 (length Y1) (length Y2) Q).
Proof.
  intros ratio X1 X2 u Y1 Y2 P Q NU B.
  set (f := likeness ratio (X1 ++ u ++ Y1) (X2 ++ u ++ Y2)). set (g := likeness ratio (X2 ++ u ++ Y2) (X1 ++ u ++ Y1)).
  assert (FR : forall A A' B B' p q, p < length A -> q < length B -> likeness ratio (A ++ A') (B ++ B') p q = likeness ratio A B p q).
  { intros A A' B' B'' p q H1 H2. unfold likeness. rewrite !app_nth1 by assumption. reflexivity. }
  assert (BK : forall A A' B B' p q, likeness ratio (A ++ A') (B ++ B') (length A + p) (length B + q) = likeness ratio A' B' p q).
  { intros A A' B' B'' p q. unfold likeness. rewrite !app_nth2_plus. reflexivity. }
  rewrite !app_length, !Nat.add_assoc. set (x := length X1) in *. set (y := length X2) in *.
  pose proof (near_layout_diagonal f g (length u) x y (x + length u + length Y1) (y + length u + length Y2) (map (further (x + length u) (y + length u)) Q)) as D.
  assert (SP : near_layout f g 0 0 (x + length u + length Y1) (y + length u + length Y2)
    (P ++ map (fun i => (x + i, y + i)) (seq 0 (length u)) ++ map (further (x + length u) (y + length u)) Q) =
    near_layout f g 0 0 x y P ++ map (fun i => (Some (x + i), Some (y + i))) (seq 0 (length u)) ++
    near_layout f g (x + length u) (y + length u) (x + length u + length Y1) (y + length u + length Y2) (map (further (x + length u) (y + length u)) Q)).
  { destruct (length u) as [|n] eqn:LU; [destruct u; [congruence|discriminate]|]. cbn [seq map app] in D |- *. cbn [near_layout] in D. rewrite near_layout_app. rewrite !Nat.add_0_r in *.
    unfold near_gap in D at 1. rewrite !Nat.sub_diag in D. cbn [Nat.leb seq map app] in D. f_equal. rewrite D. reflexivity. }
  rewrite SP. f_equal; [|f_equal].
  - apply near_layout_ext; [intros p q H1 H2; apply FR; assumption|intros q p H1 H2; apply FR; assumption|exact B].
  - pose proof (near_layout_shift f g (x + length u) (y + length u) Q 0 0 (length Y1) (length Y2)) as SH. rewrite !Nat.add_0_r in SH. rewrite SH. f_equal.
    apply near_layout_all.
    + intros p q. unfold f, x, y. rewrite <- !app_length, !app_assoc. apply BK.
    + intros q p. unfold g, x, y. rewrite <- !app_length, !app_assoc. apply BK.
Qed.
