(** The table of two witnesses with segmentation. *)
From Verif Require Import Py TokenModel SuffixModel IndexModel GraphModel AlignModel TableModel NearModel ExportModel CollateModel
  Lib GraphSpec GraphProof MergeProof RankProof AlignProof AlignerProof CollateProof TableSpec TableProof CollateSpec JoinProof ResultProof DrawProof FilterProof PairSpec ChosenSpec PairProof SegSpec SegProof ShapeProof SegTableSpec.
From Coq Require Import Permutation Relations QArith Sorted.
Open Scope list_scope.
Open Scope nat_scope.

(** The layout with a mark for the pairs. *)
Fixpoint flayout (i j n m : nat) (P : list (nat * nat)) : list (bool * (option nat * option nat)) :=
  match P with
  | [] => map (pair false) (gap i n j m)
  | (x, y) :: P' => map (pair false) (gap i x j y) ++ (true, (Some x, Some y)) :: flayout (S x) (S y) n m P'
  end.
Lemma flayout_layout : forall P i j n m, map snd (flayout i j n m P) = layout i j n m P.
Proof.
  assert (G : forall l : list (option nat * option nat), map snd (map (pair false) l) = l).
  { intros l. rewrite map_map. apply map_id. }
  induction P as [|[x y] P IH]; intros; cbn [flayout layout]; [apply G|]. rewrite map_app, G. cbn [map]. rewrite IH. reflexivity.
Qed.
Lemma flayout_marks : forall P i j n m f c, StronglySorted up P -> (forall x y, In (x, y) P -> i <= x < n /\ j <= y < m) -> In (f, c) (flayout i j n m P) ->
  (f = true <-> exists x y, c = (Some x, Some y) /\ In (x, y) P).
Proof.
  induction P as [|[x y] P IH]; intros i j n m f c ST B H; cbn [flayout] in H.
  - apply in_map_iff in H as [c' [E _]]. injection E as <- <-. split; [discriminate|intros [? [? [_ []]]]].
  - apply StronglySorted_inv in ST as [ST1 ST2]. rewrite Forall_forall in ST2. apply in_app_or in H as [H|[H|H]].
    + apply in_map_iff in H as [c' [E H]]. injection E as <- <-. apply gap_In in H as [G1 G2]. split; [discriminate|]. intros [x' [y' [-> Q]]]. exfalso.
      specialize (G1 x' eq_refl). destruct Q as [Q|Q]; [injection Q as -> ->; lia|]. specialize (ST2 _ Q). unfold up in ST2. cbn in ST2. lia.
    + injection H as <- <-. split; [intros _; exists x, y; split; [reflexivity|left; reflexivity]|reflexivity].
    + pose proof (B x y (or_introl eq_refl)) as BX.
      assert (B' : forall u v, In (u, v) P -> S x <= u < n /\ S y <= v < m).
      { intros u v Q. pose proof (B u v (or_intror Q)). specialize (ST2 _ Q). unfold up in ST2. cbn in ST2. lia. }
      rewrite (IH (S x) (S y) n m f c ST1 B' H). split; intros [u [v [-> Q]]]; exists u, v; (split; [reflexivity|]); [right; assumption|]. destruct Q as [Q|Q]; [|assumption].
      exfalso. injection Q as <- <-. assert (IL : In (Some x, Some y) (layout (S x) (S y) n m P)) by (rewrite <- flayout_layout; apply (in_map snd) in H; exact H).
      clear - IL ST1 B'. revert IL. assert (G : forall P i j n m, x < i -> (forall u v, In (u, v) P -> x < u) -> ~ In (Some x, Some y) (layout i j n m P)).
      { clear. induction P as [|[u v] P IH]; intros i j n m L B H; cbn [layout] in H.
        - apply gap_In in H as [H _]. specialize (H x eq_refl). lia.
        - pose proof (B u v (or_introl eq_refl)). apply in_app_or in H as [H|[H|H]]; [apply gap_In in H as [H _]; specialize (H x eq_refl); lia|injection H as -> ->; lia|].
          apply (IH (S u) (S v) n m); [lia|intros u' v' Q; apply (B u' v'); right; assumption|exact H]. }
      apply G; [lia|]. intros u v Q. specialize (B' u v Q). lia.
Qed.

(** ** From segments to positions *)
Section Offsets.
  Variables (off1 off2 : nat -> nat) (N M : nat).
  Hypothesis O1 : forall x, x < N -> off1 x < off1 (S x).
  Hypothesis O2 : forall y, y < M -> off2 y < off2 (S y).

  Definition range1 (o : option nat) : list nat := match o with None => [] | Some x => positions (off1 x) (off1 (S x)) end.
  Definition range2 (o : option nat) : list nat := match o with None => [] | Some x => positions (off2 x) (off2 (S x)) end.
  Definition conv (c : bool * (option nat * option nat)) : stretch := (fst c, range1 (fst (snd c)), range2 (snd (snd c))).
  Definition expand (P : list (nat * nat)) : list (nat * nat) :=
    flat_map (fun p => map (fun k => (off1 (fst p) + k, off2 (snd p) + k)) (seq 0 (off1 (S (fst p)) - off1 (fst p)))) P.
  Definition alternates {A} (l : list (bool * A)) : Prop := forall i a b, nth_error l i = Some a -> nth_error l (S i) = Some b -> fst a = negb (fst b).

  Lemma alternates_tl : forall {A} (a : bool * A) l, alternates (a :: l) -> alternates l.
  Proof. intros A a l H i x y X Y. apply (H (S i) x y X Y). Qed.

  Lemma run_on : forall r s a b i j n m Q, stretches a b (i + s) (j + s) n m (map (fun k => (i + k, j + k)) (seq s r) ++ Q) = stretches a b (i + (s + r)) (j + (s + r)) n m Q.
  Proof.
    induction r as [|r IH]; intros s a b i j n m Q; cbn [seq map app]; [rewrite Nat.add_0_r; reflexivity|].
    cbn [stretches]. rewrite !Nat.eqb_refl. cbn [andb]. rewrite <- !Nat.add_succ_r, IH. f_equal; lia.
  Qed.

  Lemma gap_one : forall x x' y y', x <= x' -> y <= y' -> x' <= N -> y' <= M -> x' - x <= 1 -> y' - y <= 1 ->
    map conv (map (pair false) (gap x x' y y')) = unpaired (off1 x) (off1 x') (off2 y) (off2 y').
  Proof.
    intros x x' y y' L1 L2 B1 B2 D1 D2. unfold gap, unpaired.
    assert (X : x' = x \/ x' = S x /\ x < N) by lia. assert (Y : y' = y \/ y' = S y /\ y < M) by lia.
    assert (EM : forall z, positions z z = []) by (intros z; unfold positions; rewrite Nat.sub_diag; reflexivity).
    assert (T : forall z, z <? z = false) by (intros z; apply Nat.ltb_irrefl). assert (T' : forall z, z <? S z = true) by (intros z; apply Nat.ltb_lt; lia).
    destruct X as [->|[-> X]]; destruct Y as [->|[-> Y]]; rewrite ?Nat.sub_diag, ?Nat.sub_succ_l, ?Nat.sub_diag by lia; cbn [Nat.max seq map]; rewrite ?T, ?Nat.add_0_r, ?T, ?T'; cbn [orb].
    - reflexivity.
    - rewrite (proj2 (Nat.ltb_lt _ _) (O2 _ Y)). cbn. rewrite EM. reflexivity.
    - rewrite (proj2 (Nat.ltb_lt _ _) (O1 _ X)). cbn. rewrite EM. reflexivity.
    - rewrite (proj2 (Nat.ltb_lt _ _) (O1 _ X)). reflexivity.
  Qed.

  Lemma off1_mono : forall x x', x < x' -> x' <= N -> off1 x < off1 x'.
  Proof. intros x x' L B. induction x' as [|x' IH]; [lia|]. pose proof (O1 x'). destruct (Nat.eq_dec x x') as [->|]; [lia|]. lia. Qed.
  Lemma off2_mono : forall x x', x < x' -> x' <= M -> off2 x < off2 x'.
  Proof. intros x x' L B. induction x' as [|x' IH]; [lia|]. pose proof (O2 x'). destruct (Nat.eq_dec x x') as [->|]; [lia|]. lia. Qed.

  Lemma gap_short : forall x x' y y' rest, alternates (map (pair false) (gap x x' y y') ++ rest) -> x' - x <= 1 /\ y' - y <= 1.
  Proof.
    intros x x' y y' rest H. destruct (le_lt_dec (Nat.max (x' - x) (y' - y)) 1) as [L|L]; [lia|]. exfalso.
    assert (LG : length (map (pair false) (gap x x' y y')) = Nat.max (x' - x) (y' - y)) by (rewrite map_length; apply PairProof.gap_length).
    destruct (nth_error (map (pair false) (gap x x' y y')) 0) as [c0|] eqn:E0; [|apply nth_error_None in E0; lia].
    destruct (nth_error (map (pair false) (gap x x' y y')) 1) as [c1|] eqn:E1; [|apply nth_error_None in E1; lia].
    assert (F0 : fst c0 = false) by (rewrite nth_error_map in E0; destruct (nth_error _ 0); [|discriminate]; injection E0 as <-; reflexivity).
    assert (F1 : fst c1 = false) by (rewrite nth_error_map in E1; destruct (nth_error _ 1); [|discriminate]; injection E1 as <-; reflexivity).
    specialize (H 0 c0 c1). rewrite !nth_error_app1 in H by lia. specialize (H E0 E1). rewrite F0, F1 in H. discriminate.
  Qed.

  Lemma stretches_layout : forall P x y a b, StronglySorted up P ->
    (forall u v, In (u, v) P -> x <= u < N /\ y <= v < M /\ off1 (S u) - off1 u = off2 (S v) - off2 v) -> x <= N -> y <= M ->
    alternates (flayout x y N M P) -> a <= off1 x -> off1 x - a = off2 y - b -> b <= off2 y ->
    (a < off1 x -> match flayout x y N M P with [] => True | c :: _ => fst c = false end) ->
    stretches a b (off1 x) (off2 y) (off1 N) (off2 M) (expand P) = run a (off1 x) b (off2 y) ++ map conv (flayout x y N M P).
  Proof.
    induction P as [|[x' y'] P IH]; intros x y a b ST B LX LY AL LA LD LB OP.
    - cbn [expand flat_map stretches flayout] in *. pose proof (gap_short x N y M []) as GS. rewrite app_nil_r in GS. destruct (GS AL) as [G1 G2]. rewrite gap_one by lia. reflexivity.
    - pose proof (B x' y' (or_introl eq_refl)) as [BX [BY BS]]. apply StronglySorted_inv in ST as [ST1 ST2]. rewrite Forall_forall in ST2.
      pose proof (O1 x' ltac:(lia)) as P1. pose proof (O2 y' ltac:(lia)) as P2.
      cbn [flayout] in AL. destruct (gap_short _ _ _ _ _ AL) as [G1 G2].
      assert (B' : forall u v, In (u, v) P -> S x' <= u < N /\ S y' <= v < M /\ off1 (S u) - off1 u = off2 (S v) - off2 v).
      { intros u v Q. pose proof (B u v (or_intror Q)). specialize (ST2 _ Q). unfold up in ST2. cbn in ST2. lia. }
      assert (AL' : alternates ((true, (Some x', Some y')) :: flayout (S x') (S y') N M P)).
      { clear - AL. induction (map (pair false) (gap x x' y y')) as [|c g IHg]; [exact AL|]. apply IHg. cbn [app] in AL. eapply alternates_tl. exact AL. }
      assert (NX : match flayout (S x') (S y') N M P with [] => True | c :: _ => fst c = false end).
      { destruct (flayout (S x') (S y') N M P) as [|c r]; [exact I|]. specialize (AL' 0 _ _ eq_refl eq_refl). cbn [fst] in AL'. destruct (fst c); [discriminate|reflexivity]. }
      pose proof (alternates_tl _ _ AL') as AL2.
      set (s := off1 (S x') - off1 x') in *.
      assert (EX : expand ((x', y') :: P) = (off1 x' + 0, off2 y' + 0) :: map (fun k => (off1 x' + k, off2 y' + k)) (seq 1 (s - 1)) ++ expand P).
      { unfold expand at 1. cbn [flat_map fst snd]. fold s. replace s with (S (s - 1)) at 1 by lia. reflexivity. }
      assert (RE : forall a b, stretches a b (S (off1 x' + 0)) (S (off2 y' + 0)) (off1 N) (off2 M) (map (fun k => (off1 x' + k, off2 y' + k)) (seq 1 (s - 1)) ++ expand P)
                    = stretches a b (off1 (S x')) (off2 (S y')) (off1 N) (off2 M) (expand P)).
      { intros a0 b0. replace (S (off1 x' + 0)) with (off1 x' + 1) by lia. replace (S (off2 y' + 0)) with (off2 y' + 1) by lia. rewrite run_on. f_equal; lia. }
      assert (RC : forall a0 b0, a0 <= off1 x' -> off1 x' - a0 = off2 y' - b0 -> b0 <= off2 y' ->
        stretches a0 b0 (off1 (S x')) (off2 (S y')) (off1 N) (off2 M) (expand P) = run a0 (off1 (S x')) b0 (off2 (S y')) ++ map conv (flayout (S x') (S y') N M P)).
      { intros a0 b0 Q1 Q2 Q3. apply IH; try assumption; try lia. intros _. exact NX. }
      rewrite EX. cbn [stretches]. rewrite !RE. cbn [flayout]. rewrite map_app. cbn [map]. rewrite gap_one by lia. rewrite !Nat.add_0_r.
      assert (RN : run (off1 x') (off1 (S x')) (off2 y') (off2 (S y')) = [conv (true, (Some x', Some y'))]).
      { unfold run. rewrite (proj2 (Nat.ltb_lt _ _) P1). reflexivity. }
      destruct ((off1 x' =? off1 x) && (off2 y' =? off2 y)) eqn:E.
      + apply andb_true_iff in E as [E1 E2]. apply Nat.eqb_eq in E1, E2.
        assert (x' = x) by (destruct (Nat.eq_dec x' x) as [|D]; [assumption|]; pose proof (off1_mono x x' ltac:(lia) ltac:(lia)); lia).
        assert (y' = y) by (destruct (Nat.eq_dec y' y) as [|D]; [assumption|]; pose proof (off2_mono y y' ltac:(lia) ltac:(lia)); lia). subst x' y'.
        assert (GE : gap x x y y = []) by (unfold gap; rewrite !Nat.sub_diag; reflexivity).
        assert (A0 : a = off1 x).
        { destruct (Nat.eq_dec a (off1 x)) as [|D]; [assumption|]. specialize (OP ltac:(lia)). cbn [flayout] in OP. rewrite GE in OP. cbn in OP. discriminate. }
        assert (b = off2 y) by lia. subst a b. rewrite RC by lia. rewrite RN.
        unfold run, unpaired. rewrite !Nat.ltb_irrefl. reflexivity.
      + rewrite RC, RN by lia. reflexivity.
  Qed.

  Lemma expand_sorted : forall P, StronglySorted up P -> (forall u v, In (u, v) P -> u < N /\ v < M /\ off1 (S u) - off1 u = off2 (S v) - off2 v) -> StronglySorted up (expand P).
  Proof.
    induction P as [|[x y] P IH]; intros ST B; [constructor|]. apply StronglySorted_inv in ST as [ST1 ST2]. rewrite Forall_forall in ST2.
    pose proof (B x y (or_introl eq_refl)) as [B1 [B2 B3]]. specialize (IH ST1 (fun u v Q => B u v (or_intror Q))).
    change (expand ((x, y) :: P)) with (map (fun k => (off1 x + k, off2 y + k)) (seq 0 (off1 (S x) - off1 x)) ++ expand P).
    assert (AB : forall q, In q (expand P) -> off1 (S x) <= fst q /\ off2 (S y) <= snd q).
    { intros q Q. unfold expand in Q. apply in_flat_map in Q as [[u v] [Q1 Q2]]. apply in_map_iff in Q2 as [k [<- _]]. cbn [fst snd]. specialize (ST2 _ Q1). unfold up in ST2. cbn in ST2.
      pose proof (B u v (or_intror Q1)) as [C1 [C2 _]].
      assert (off1 (S x) <= off1 u) by (destruct (Nat.eq_dec (S x) u) as [->|]; [lia|]; pose proof (off1_mono (S x) u ltac:(lia) ltac:(lia)); lia).
      assert (off2 (S y) <= off2 v) by (destruct (Nat.eq_dec (S y) v) as [->|]; [lia|]; pose proof (off2_mono (S y) v ltac:(lia) ltac:(lia)); lia). lia. }
    assert (G : forall r s, s + r <= off1 (S x) - off1 x -> StronglySorted up (map (fun k => (off1 x + k, off2 y + k)) (seq s r) ++ expand P)).
    { induction r as [|r IHr]; intros s L; [exact IH|]. cbn [seq map app]. constructor; [apply IHr; lia|]. apply Forall_forall. intros q Q. apply in_app_or in Q as [Q|Q].
      - apply in_map_iff in Q as [k [<- Q]]. apply in_seq in Q. unfold up. cbn. lia.
      - specialize (AB q Q). unfold up. cbn. pose proof (O1 x B1). lia. }
    apply G. lia.
  Qed.

  Lemma expand_In : forall P i j, (forall u v, In (u, v) P -> off1 (S u) - off1 u = off2 (S v) - off2 v) ->
    (In (i, j) (expand P) <-> exists x y k, In (x, y) P /\ k < off1 (S x) - off1 x /\ i = off1 x + k /\ j = off2 y + k).
  Proof.
    intros P i j B. unfold expand. rewrite in_flat_map. split.
    - intros [[x y] [Q1 Q2]]. apply in_map_iff in Q2 as [k [E Q2]]. apply in_seq in Q2. cbn [fst snd] in *. injection E as <- <-. exists x, y, k. split; [assumption|]. lia.
    - intros [x [y [k [Q [L [-> ->]]]]]]. exists (x, y). split; [assumption|]. apply in_map_iff. exists k. cbn [fst snd]. split; [reflexivity|]. apply in_seq. lia.
  Qed.
End Offsets.

(** ** Positions in a list of parts *)
Section Flat.
  Context {A B : Type} (f : A -> list B).
  Lemma flat_off : forall l x v, nth_error l x = Some v -> length (flat_map f (firstn (S x) l)) = length (flat_map f (firstn x l)) + length (f v).
  Proof.
    induction l as [|a l IH]; intros [|x] v H; try discriminate.
    - cbn in H. injection H as ->. cbn. rewrite app_nil_r. reflexivity.
    - cbn [nth_error] in H. change (firstn (S (S x)) (a :: l)) with (a :: firstn (S x) l). change (firstn (S x) (a :: l)) with (a :: firstn x l).
      cbn [flat_map]. rewrite !app_length, (IH x v H). lia.
  Qed.
  Lemma flat_nth : forall l x v k, nth_error l x = Some v -> k < length (f v) -> nth_error (flat_map f l) (length (flat_map f (firstn x l)) + k) = nth_error (f v) k.
  Proof.
    induction l as [|a l IH]; intros [|x] v k H L; try discriminate.
    - cbn in H. injection H as ->. cbn. apply nth_error_app1. assumption.
    - cbn [nth_error] in H. change (firstn (S x) (a :: l)) with (a :: firstn x l). cbn [flat_map]. rewrite app_length, nth_error_app2 by lia.
      rewrite <- (IH x v k H L). f_equal. lia.
  Qed.
  Lemma flat_inv : forall l i b, nth_error (flat_map f l) i = Some b -> exists x v k, nth_error l x = Some v /\ nth_error (f v) k = Some b /\ i = length (flat_map f (firstn x l)) + k.
  Proof.
    induction l as [|a l IH]; intros i b H; [destruct i; discriminate|]. cbn [flat_map] in H. destruct (le_lt_dec (length (f a)) i) as [L|L].
    - rewrite nth_error_app2 in H by assumption. destruct (IH _ _ H) as [x [v [k [X1 [X2 X3]]]]]. exists (S x), v, k. split; [exact X1|]. split; [exact X2|].
      change (firstn (S x) (a :: l)) with (a :: firstn x l). cbn [flat_map]. rewrite app_length. lia.
    - rewrite nth_error_app1 in H by assumption. exists 0, a, i. repeat split; assumption.
  Qed.
End Flat.

Lemma unfold_parts : forall part s, (forall v ts, In (v, ts) s -> length ts = length (part v)) ->
  map fst (unfold_path part s) = flat_map part (map fst s) /\ flat_map snd (unfold_path part s) = flat_map snd s.
Proof.
  intros part. induction s as [|[v ts] s IH]; intros H; [split; reflexivity|]. destruct IH as [I1 I2]; [intros; apply H; right; assumption|].
  unfold unfold_path in *. cbn [flat_map map fst snd]. rewrite map_app, flat_map_app, I1, I2.
  pose proof (H v ts (or_introl eq_refl)) as L. split; f_equal.
  - clear - L. revert L. generalize (part v). induction ts as [|t ts IH]; intros [|u p] L; try discriminate; [reflexivity|]. cbn in *. f_equal. apply IH. lia.
  - clear - L. revert L. generalize (part v). induction ts as [|t ts IH]; intros [|u p] L; try discriminate; [reflexivity|]. cbn in *. f_equal. apply IH. lia.
Qed.
Lemma off_tokens : forall (part : vid -> list vid) (s : list (vid * list token)) x, (forall v ts, In (v, ts) s -> length ts = length (part v)) ->
  length (flat_map snd (firstn x s)) = length (flat_map part (firstn x (map fst s))).
Proof.
  intros part. induction s as [|[v ts] s IH]; intros [|x] H; try reflexivity. change (firstn (S x) ((v, ts) :: s)) with ((v, ts) :: firstn x s).
  cbn [map fst]. change (firstn (S x) (v :: map fst s)) with (v :: firstn x (map fst s)). cbn [flat_map snd]. rewrite !app_length, IH by (intros; apply H; right; assumption).
  rewrite (H v ts (or_introl eq_refl)). reflexivity.
Qed.

(** The cell of a segment. *)
Lemma cell_shows_all : forall w ts p wp part o c, length p = length ts -> Forall2 (came_from (w_sigil w)) (w_toks w) ts ->
  steps ts p = unfold_path part (snd wp) -> (forall v l, In (v, l) (snd wp) -> length l = length (part v)) -> (forall v l, In (v, l) (snd wp) -> l <> []) ->
  cell_is wp o c -> shows_all w (range1 (fun x => length (flat_map part (firstn x (map fst (snd wp))))) o) c.
Proof.
  intros w ts p wp part o c L C E LE NE H. unfold cell_is in H. destruct o as [x|]; cbn [range1]; [|exact H]. destruct H as [v [l [H ->]]].
  assert (HI : In (v, l) (snd wp)) by (eapply nth_error_In; exact H).
  assert (HV : nth_error (map fst (snd wp)) x = Some v) by (rewrite nth_error_map, H; reflexivity).
  rewrite (flat_off part _ x v HV). unfold positions. rewrite (Nat.add_comm _ (length (part v))), Nat.add_sub, <- (LE v l HI), <- off_tokens by assumption.
  assert (TS : ts = flat_map snd (snd wp)).
  { rewrite <- (steps_tokens ts p L), E. apply unfold_parts. assumption. }
  assert (G : Forall2 (fun i t => exists t0, nth_error (w_toks w) i = Some t0 /\ came_from (w_sigil w) t0 t) (seq (length (flat_map snd (firstn x (snd wp)))) (length l)) l).
  { apply Forall2_pointwise; [apply seq_length|]. intros k i t K1 K2. assert (KL : k < length l) by (apply nth_error_Some; congruence).
    apply nth_error_nth with (d := 0) in K1. rewrite seq_nth in K1 by assumption. subst i.
    assert (Q : nth_error ts (length (flat_map snd (firstn x (snd wp))) + k) = Some t) by (rewrite TS, (flat_nth snd _ x (v, l) k H KL); exact K2).
    destruct (Forall2_nth_ex_r _ _ _ _ _ C Q) as [t0 Q0]. exists t0. exact Q0. }
  unfold shows_all. specialize (NE v l HI). destruct l as [|t l]; [congruence|]. cbn [length seq] in *. exists (t :: l). split; [reflexivity|exact G].
Qed.

Section SegTable.
  Variables (cc : cclass) (topo : graph -> res (list vid)) (ratio : str -> str -> Q).
  Hypothesis TO : topo_ok topo.

  Theorem segmented_table : forall w1 w2 o t, good_sigla [w1; w2] -> o_segmentation o = true -> o_near o = false ->
    collate cc topo ratio [w1; w2] o = Ok (OTable t) ->
    exists P, agreeing (readings w1) (readings w2) P /\
      (let C := stretches 0 0 0 0 (length (w_toks w1)) (length (w_toks w2)) P in
       (exists c1 c2, t_rows t = [{| r_header := w_sigil w1; r_cells := c1 |}; {| r_header := w_sigil w2; r_cells := c2 |}] /\
         Forall2 (fun s c => shows_all w1 (snd (fst s)) c) C c1 /\ Forall2 (fun s c => shows_all w2 (snd s) c) C c2) /\
       map c_variant (t_columns t) = map (fun s => negb (fst (fst s))) C) /\
      (forall o0 t0, o_segmentation o0 = false -> o_near o0 = false -> o_filter o0 = o_filter o -> o_transp o0 = o_transp o ->
         collate cc topo ratio [w1; w2] o0 = Ok (OTable t0) ->
         let C := layout 0 0 (length (w_toks w1)) (length (w_toks w2)) P in
         exists c1 c2, t_rows t0 = [{| r_header := w_sigil w1; r_cells := c1 |}; {| r_header := w_sigil w2; r_cells := c2 |}] /\
           Forall2 (shows w1) (map fst C) c1 /\ Forall2 (shows w2) (map snd C) c2 /\
           map c_variant (t_columns t0) = map (fun c => negb (paired P c)) C) /\
      (o_filter o = None -> no_doublets (readings w2) -> forall P', agreeing (readings w1) (readings w2) P' ->
        (balance (length (w_toks w1)) (length (w_toks w2)) P' <= balance (length (w_toks w1)) (length (w_toks w2)) P)%Z) /\
      (o_filter o = None -> P = chosen_pairs (readings w1) (readings w2)).
  Proof.
    intros w1 w2 o t G Hs Hn H. pose proof (two_alternate cc topo ratio TO w1 w2 o t G Hs Hn H) as ALT.
    destruct (collate_table_inv cc topo ratio _ o t H) as [g [r [H1 H2]]].
    unfold collate_graph in H1. apply bind_ok in H1 as [[ti g1] [HA H1]]. destruct (o_astar o); [discriminate|].
    rewrite Hn, Hs in H1. apply bind_ok in H1 as [r1 [HR H1]]. cbn [bind] in H1. apply bind_ok in H1 as [g2 [HJ H1]]. apply bind_ok in H1 as [r2 [HR2 H1]].
    apply ok_inj in H1. injection H1 as <- <-.
    destruct (two_collate topo (o_filter o) w1 w2 _ ti g1 TO G HA) as [ts1 [ts2 [p1 [p2 [GI [L1 [L2 [C1 [C2 ALG]]]]]]]]].
    destruct (ranking_spec topo g1 _ TO GI) as [rk [m [l [_ [R RO]]]]].
    assert (ONE : one_token [(w_sigil w1, steps ts1 p1); (w_sigil w2, steps ts2 p2)]).
    { intros p v ts [<-|[<-|[]]] Q; cbn [snd] in Q; apply steps_single in Q as [x [-> _]]; reflexivity. }
    destruct (join_spec cc g1 _ GI ONE) as [g2' [W2 [part [HJ' [J _]]]]]. rewrite HJ in HJ'. apply ok_inj in HJ'. subst g2'.
    pose proof (jo_graph _ _ _ _ _ _ J) as GI2. pose proof (jo_paths _ _ _ _ _ _ J) as JP.
    inversion JP as [|? wp1 ? W2' [F11 [F12 F13]] JP']; subst. inversion JP' as [|? wp2 ? W2'' [F21 [F22 F23]] JP'']; subst. inversion JP''; subst. clear JP JP' JP''. cbn [fst snd] in F11, F12, F21, F22.
    destruct (ranking_spec topo g2 _ TO GI2) as [rk2 [m2 [l2 [_ [R2 RO2]]]]]. rewrite R2 in HR2. apply ok_inj in HR2. subst r2.
    rewrite (table_spec g2 _ rk2 m2 l2 GI2 RO2) in H2. apply ok_inj in H2. cbn [map] in H2. rewrite F11, F21 in H2.
    destruct (two_table g2 wp1 wp2 rk2 m2 l2 GI2 RO2) as [Ps [ST [SH [[c1 [c2 [TR [X1 X2]]]] FV]]]].
    match type of H2 with ?T = _ => change (t_rows T = [{| r_header := fst wp1; r_cells := c1 |}; {| r_header := fst wp2; r_cells := c2 |}]) in TR;
      change (Forall2 (fun c col => c_variant col = false <-> exists x y, c = (Some x, Some y) /\ In (x, y) Ps) (layout 0 0 (length (snd wp1)) (length (snd wp2)) Ps) (t_columns T)) in FV end.
    rewrite H2 in TR, FV.
    set (N := length (snd wp1)) in *. set (M := length (snd wp2)) in *. set (V1 := map fst (snd wp1)) in *. set (V2 := map fst (snd wp2)) in *.
    set (off1 := fun x => length (flat_map part (firstn x V1))). set (off2 := fun x => length (flat_map part (firstn x V2))).
    assert (IV1 : forall x v, nth_error V1 x = Some v -> In v (vertices g2)).
    { intros x v Q. apply nth_error_In in Q. apply in_map_iff in Q as [[v' l'] [<- Q]]. apply (gi_on _ _ GI2 wp1 v' l'); [left; reflexivity|exact Q]. }
    assert (IV2 : forall x v, nth_error V2 x = Some v -> In v (vertices g2)).
    { intros x v Q. apply nth_error_In in Q. apply in_map_iff in Q as [[v' l'] [<- Q]]. apply (gi_on _ _ GI2 wp2 v' l'); [right; left; reflexivity|exact Q]. }
    assert (PN : forall v, In v (vertices g2) -> 0 < length (part v)).
    { intros v Q. destruct (jo_head _ _ _ _ _ _ J v Q) as [r' ->]. cbn. lia. }
    assert (LV1 : length V1 = N) by apply map_length. assert (LV2 : length V2 = M) by apply map_length.
    assert (S1 : forall x v, nth_error V1 x = Some v -> off1 (S x) = off1 x + length (part v)) by (intros x v Q; apply flat_off; exact Q).
    assert (S2 : forall x v, nth_error V2 x = Some v -> off2 (S x) = off2 x + length (part v)) by (intros x v Q; apply flat_off; exact Q).
    assert (O1 : forall x, x < N -> off1 x < off1 (S x)).
    { intros x Q. destruct (nth_error V1 x) as [v|] eqn:E; [|apply nth_error_None in E; lia]. rewrite (S1 x v E). pose proof (PN v (IV1 x v E)). lia. }
    assert (O2 : forall x, x < M -> off2 x < off2 (S x)).
    { intros x Q. destruct (nth_error V2 x) as [v|] eqn:E; [|apply nth_error_None in E; lia]. rewrite (S2 x v E). pose proof (PN v (IV2 x v E)). lia. }
    assert (BP : forall u v, In (u, v) Ps -> u < N /\ v < M /\ off1 (S u) - off1 u = off2 (S v) - off2 v).
    { intros u v Q. apply SH in Q as [x [Q1 Q2]]. rewrite (S1 u x Q1), (S2 v x Q2). split; [rewrite <- LV1; apply nth_error_Some; congruence|]. split; [rewrite <- LV2; apply nth_error_Some; congruence|lia]. }
    assert (E1 : p1 = flat_map part V1). { rewrite <- (steps_fst ts1 p1 L1), F12. apply unfold_parts. assumption. }
    assert (E2 : p2 = flat_map part V2). { rewrite <- (steps_fst ts2 p2 L2), F22. apply unfold_parts. assumption. }
    assert (Z1 : off1 N = length (w_toks w1)) by (unfold off1; rewrite <- LV1, firstn_all, <- E1, L1; symmetry; apply (Forall2_len _ _ _ C1)).
    assert (Z2 : off2 M = length (w_toks w2)) by (unfold off2; rewrite <- LV2, firstn_all, <- E2, L2; symmetry; apply (Forall2_len _ _ _ C2)).
    set (P := expand off1 off2 Ps).
    assert (SP : StronglySorted up P) by (apply (expand_sorted off1 off2 N M O1 O2 Ps ST BP)).
    assert (SHP : forall i j, In (i, j) P <-> exists v, nth_error p1 i = Some v /\ nth_error p2 j = Some v).
    { intros i j. unfold P. rewrite expand_In by (intros u v Q; apply BP; assumption). rewrite E1, E2. split.
      - intros [x [y [k [Q [LK [-> ->]]]]]]. apply SH in Q as [v [Q1 Q2]]. rewrite (S1 x v Q1), Nat.add_comm, Nat.add_sub in LK.
        destruct (nth_error (part v) k) as [u|] eqn:EK; [|apply nth_error_None in EK; lia]. exists u.
        split; [unfold off1; rewrite (flat_nth part V1 x v k Q1 LK)|unfold off2; rewrite (flat_nth part V2 y v k Q2 LK)]; exact EK.
      - intros [u [Q1 Q2]]. destruct (flat_inv part _ _ _ Q1) as [x [v [k [A1 [A2 ->]]]]]. destruct (flat_inv part _ _ _ Q2) as [y [v' [k' [B1 [B2 ->]]]]].
        destruct (part_disjoint cc g1 _ g2 _ part J rk m l RO v v' k k' u (IV1 _ _ A1) (IV2 _ _ B1) A2 B2) as [<- <-].
        exists x, y, k. split; [apply SH; exists v; split; assumption|]. split; [|split; reflexivity].
        rewrite (S1 x v A1). assert (k < length (part v)) by (apply nth_error_Some; congruence). lia. }
    destruct (ALG P SP SHP) as [AG [OPT [_ CHO]]].
    set (FL := flayout 0 0 N M Ps).
    assert (FM : map c_variant (t_columns t) = map (fun c => negb (fst c)) FL).
    { rewrite <- (flayout_layout Ps 0 0 N M) in FV. fold FL in FV.
      assert (MK : forall f c, In (f, c) FL -> (f = true <-> exists x y, c = (Some x, Some y) /\ In (x, y) Ps)).
      { intros f c Q. apply (flayout_marks Ps 0 0 N M f c ST); [|exact Q]. intros x y Q'. destruct (BP x y Q') as [? [? _]]. lia. }
      clear - FV MK. revert FV MK. generalize (t_columns t). induction FL as [|[f c] FL IH]; intros cols FV MK; cbn [map] in FV; inversion FV as [|? col ? cols' Q FV']; subst; [reflexivity|].
      cbn [map fst]. f_equal; [|apply IH; [assumption|intros; apply MK; right; assumption]].
      cbn [snd] in Q. rewrite <- (MK f c (or_introl eq_refl)) in Q. destruct f, (c_variant col); cbn; intuition congruence. }
    assert (AL : alternates FL).
    { intros i a b A B. assert (A' : nth_error (map c_variant (t_columns t)) i = Some (negb (fst a))) by (rewrite FM, nth_error_map, A; reflexivity).
      assert (B' : nth_error (map c_variant (t_columns t)) (S i) = Some (negb (fst b))) by (rewrite FM, nth_error_map, B; reflexivity).
      rewrite nth_error_map in A', B'. destruct (nth_error (t_columns t) i) as [ca|] eqn:EA; [|discriminate]. destruct (nth_error (t_columns t) (S i)) as [cb|] eqn:EB; [|discriminate].
      cbn in A', B'. injection A' as A'. injection B' as B'. specialize (ALT i ca cb EA EB). rewrite A', B' in ALT. destruct (fst a), (fst b); cbn in *; congruence. }
    assert (SL : stretches 0 0 0 0 (length (w_toks w1)) (length (w_toks w2)) P = map (conv off1 off2) FL).
    { rewrite <- Z1, <- Z2. change 0 with (off1 0) at 3. change 0 with (off2 0) at 4. unfold P.
      rewrite (stretches_layout off1 off2 N M O1 O2 Ps 0 0 0 0 ST); try (cbn; lia); [reflexivity| |exact AL].
      intros u v Q. destruct (BP u v Q) as [? [? ?]]. lia. }
    exists P. split; [exact AG|]. split; [|split; [|split; [|exact CHO]]].
    - cbv zeta. rewrite SL. split; [|rewrite FM, map_map; reflexivity]. exists c1, c2. split; [rewrite TR, <- F11, <- F21; reflexivity|].
      rewrite <- (flayout_layout Ps 0 0 N M), !map_map in X1, X2. fold FL in X1, X2. split.
      + assert (K : forall x c, cell_is wp1 x c -> shows_all w1 (range1 off1 x) c).
        { intros x c Q. apply (cell_shows_all w1 ts1 p1 wp1 part x c L1 C1 F12 F13); [|exact Q]. intros v l' Q'. apply (gi_on _ _ GI2 wp1 v l'); [left; reflexivity|exact Q']. }
        clear - X1 K. revert X1. generalize c1. induction FL as [|f FL IH]; intros cs X; cbn [map] in X; inversion X; subst; constructor; [apply K; assumption|apply IH; assumption].
      + assert (K : forall x c, cell_is wp2 x c -> shows_all w2 (range1 off2 x) c).
        { intros x c Q. apply (cell_shows_all w2 ts2 p2 wp2 part x c L2 C2 F22 F23); [|exact Q]. intros v l' Q'. apply (gi_on _ _ GI2 wp2 v l'); [right; left; reflexivity|exact Q']. }
        clear - X2 K. revert X2. generalize c2. induction FL as [|f FL IH]; intros cs X; cbn [map] in X; inversion X; subst; constructor; [apply K; assumption|apply IH; assumption].
    - intros o0 t0 Hs0 Hn0 Hf0 Ht0 H0. cbv zeta. destruct (collate_table_inv cc topo ratio _ o0 t0 H0) as [g' [r' [H1 H3]]].
      unfold collate_graph in H1. apply bind_ok in H1 as [[ti' g1'] [HA' H1]]. destruct (o_astar o0); [discriminate|]. rewrite Hf0, Ht0, HA in HA'. apply ok_inj in HA'. injection HA' as <- <-.
      rewrite Hn0, Hs0 in H1. apply bind_ok in H1 as [r1' [HR' H1]]. cbn [bind] in H1. apply ok_inj in H1. injection H1 as <- <-.
      rewrite R in HR'. apply ok_inj in HR'. subst r1'.
      rewrite (table_spec g1 _ rk m l GI RO) in H3. apply ok_inj in H3. cbn [map] in H3.
      destruct (two_table g1 _ _ rk m l GI RO) as [P0 [ST0 [SH0 [[d1 [d2 [TR0 [Y1 Y2]]]] FV0]]]]. cbn [fst snd] in *.
      assert (S1' : length (steps ts1 p1) = length (w_toks w1)).
      { unfold steps. rewrite combine_length, map_length. apply Forall2_len in C1. lia. }
      assert (S2' : length (steps ts2 p2) = length (w_toks w2)).
      { unfold steps. rewrite combine_length, map_length. apply Forall2_len in C2. lia. }
      rewrite S1', S2' in *. rewrite (steps_fst ts1 p1 L1), (steps_fst ts2 p2 L2) in SH0.
      match type of H3 with ?T = _ => change (t_rows T = [{| r_header := w_sigil w1; r_cells := d1 |}; {| r_header := w_sigil w2; r_cells := d2 |}]) in TR0;
        change (Forall2 (fun c col => c_variant col = false <-> exists x y, c = (Some x, Some y) /\ In (x, y) P0) (layout 0 0 (length (w_toks w1)) (length (w_toks w2)) P0) (t_columns T)) in FV0 end.
      rewrite H3 in TR0, FV0.
      assert (P0 = P) by (apply sorted_members; [assumption|assumption|]; intros [x y]; rewrite SH0, SHP; reflexivity). subst P0.
      exists d1, d2. split; [exact TR0|]. split; [|split].
      + eapply Forall2_impl; [|exact Y1]. intros x c. apply shows_cell; assumption.
      + eapply Forall2_impl; [|exact Y2]. intros x c. apply shows_cell; assumption.
      + clear - FV0. revert FV0. generalize (t_columns t0). induction (layout 0 0 (length (w_toks w1)) (length (w_toks w2)) P) as [|c C IH]; intros cols FV; inversion FV as [|? col ? cols' Q FV']; subst; [reflexivity|].
        cbn [map]. f_equal; [|apply IH; assumption]. rewrite <- paired_iff in Q. destruct (c_variant col), (paired P c); cbn; intuition congruence.
    - exact OPT.
  Qed.
End SegTable.
