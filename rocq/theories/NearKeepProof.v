(** Rows with the same filled cells in the same order (C109). *)
From Verif Require Import Py TokenModel IndexModel TableModel Lib GraphProof TableSpec NearSideSpec.
From Coq Require Import Sorted.
Open Scope list_scope.
Open Scope nat_scope.

(** The filled cells of a row with their columns. *)
Fixpoint filled (n : nat) (cells : list cell) : list (nat * list token) :=
  match cells with [] => [] | Some ts :: cs => (n, ts) :: filled (S n) cs | None :: cs => filled (S n) cs end.

Lemma filled_In : forall cells n k ts, In (k, ts) (filled n cells) <-> exists j, k = n + j /\ nth_error cells j = Some (Some ts).
Proof.
  induction cells as [|c cs IH]; intros n k ts.
  - split; [intros []|]. intros [[|j] [_ E]]; discriminate.
  - assert (T : (exists j, k = S n + j /\ nth_error cs j = Some (Some ts)) <-> exists j, k = n + S j /\ nth_error (c :: cs) (S j) = Some (Some ts)).
    { split; intros [j [-> E]]; exists j; (split; [lia|exact E]). }
    destruct c as [us|]; cbn [filled In]; rewrite IH, T; split.
    + intros [E|[j [E N]]]; [injection E as -> ->; exists 0; split; [lia|reflexivity]|exists (S j); auto].
    + intros [[|j] [E N]]; [left; cbn [nth_error] in N; injection N as ->; f_equal; lia|right; exists j; auto].
    + intros [j [E N]]. exists (S j). auto.
    + intros [[|j] [E N]]; [discriminate|exists j; auto].
Qed.

Lemma filled_sorted : forall cells n, StronglySorted lt (map fst (filled n cells)).
Proof.
  induction cells as [|c cs IH]; intros n; [constructor|]. destruct c as [us|]; cbn [filled map fst]; [|apply IH].
  constructor; [apply IH|]. apply Forall_forall. intros k Hk. apply in_map_iff in Hk as [[k' ts] [<- Hi]]. apply filled_In in Hi as [j [-> _]]. cbn [fst]. lia.
Qed.

Lemma filled_tokens : forall cells n, flat_map cell_tokens cells = concat (map snd (filled n cells)).
Proof.
  induction cells as [|c cs IH]; intros n; [reflexivity|]. destruct c as [us|]; cbn [flat_map cell_tokens filled map snd concat app]; rewrite (IH (S n)); reflexivity.
Qed.

Lemma same_order : forall {A} (R : nat -> nat -> Prop) (l l' : list (nat * A)), StronglySorted lt (map fst l) -> StronglySorted lt (map fst l') ->
  (forall y a, In (y, a) l -> exists z, In (z, a) l' /\ R y z) -> (forall z a, In (z, a) l' -> exists y, In (y, a) l /\ R y z) ->
  (forall y y' z z', R y z -> R y' z' -> (y < y' <-> z < z')) -> map snd l = map snd l'.
Proof.
  intros A R l. induction l as [|[y0 a] l IH]; intros [|[z0 b] l'] S1 S2 H1 H2 M; [reflexivity| | |].
  - destruct (H2 z0 b (or_introl eq_refl)) as [y [[] _]].
  - destruct (H1 y0 a (or_introl eq_refl)) as [z [[] _]].
  - cbn [map fst] in S1, S2. inversion S1 as [|? ? S1' F1]; inversion S2 as [|? ? S2' F2]; subst.
    assert (G1 : forall y c, In (y, c) l -> y0 < y) by (intros y c Hi; apply (proj1 (Forall_forall _ _) F1); apply (in_map fst) in Hi; exact Hi).
    assert (G2 : forall z c, In (z, c) l' -> z0 < z) by (intros z c Hi; apply (proj1 (Forall_forall _ _) F2); apply (in_map fst) in Hi; exact Hi).
    assert (HD : R y0 z0 /\ a = b).
    { destruct (H1 y0 a (or_introl eq_refl)) as [z [Z RZ]]. destruct Z as [Z|Z]; [injection Z as -> ->; auto|]. exfalso.
      destruct (H2 z0 b (or_introl eq_refl)) as [y [Y RY]]. pose proof (G2 z a Z) as L.
      apply (M y y0 z0 z RY RZ) in L. destruct Y as [Y|Y]; [injection Y as -> _; lia|]. pose proof (G1 y b Y). lia. }
    destruct HD as [R0 ->]. cbn [map snd]. f_equal. apply IH; auto.
    + intros y c Hi. destruct (H1 y c (or_intror Hi)) as [z [[Z|Z] RZ]]; [|exists z; auto]. injection Z as -> ->. exfalso.
      pose proof (G1 y c Hi) as L. apply (M y0 y z z R0 RZ) in L. lia.
    + intros z c Hi. destruct (H2 z c (or_intror Hi)) as [y [[Y|Y] RY]]; [|exists y; auto]. injection Y as -> ->. exfalso.
      pose proof (G2 z c Hi) as L. apply (M y y z0 z R0 RY) in L. lia.
Qed.

(** A row that shows no token twice has no two equal cells. *)
Lemma once_cells : forall cells y y' ts, NoDup (map tk_pos (flat_map cell_tokens cells)) -> ts <> [] ->
  nth_error cells y = Some (Some ts) -> nth_error cells y' = Some (Some ts) -> y = y'.
Proof.
  assert (W : forall cells y y' ts, NoDup (map tk_pos (flat_map cell_tokens cells)) -> ts <> [] -> nth_error cells y = Some (Some ts) -> nth_error cells y' = Some (Some ts) -> ~ y < y').
  { intros cells y y' ts N NE E1 E2 L. destruct ts as [|t ts]; [congruence|]. apply nth_error_split in E1 as [l1 [l2 [-> L1]]].
    rewrite nth_error_app2 in E2 by lia. destruct (y' - length l1) as [|k] eqn:K; [lia|]. cbn [nth_error] in E2. apply nth_error_split in E2 as [l3 [l4 [-> _]]].
    rewrite flat_map_app, map_app in N. apply NoDup_app_iff in N as [_ [N _]]. cbn [flat_map cell_tokens] in N. rewrite map_app in N. cbn [map app] in N.
    inversion N as [|? ? C _]; subst. apply C. apply in_or_app. right. apply in_map_iff. exists t. split; [reflexivity|]. rewrite flat_map_app. apply in_or_app. right.
    cbn [flat_map cell_tokens]. left. reflexivity. }
  intros cells y y' ts N NE E1 E2. pose proof (W cells y y' ts N NE E1 E2). pose proof (W cells y' y ts N NE E2 E1). lia.
Qed.

(** Two rows whose filled cells answer each other on the sides of the shared columns. *)
Lemma rows_kept : forall t0 (c0 c1 : list cell),
  (forall y ts, nth_error c1 y = Some (Some ts) -> exists z, nth_error c0 z = Some (Some ts) /\ same_sides t0 y z) ->
  (forall z ts, nth_error c0 z = Some (Some ts) -> exists y ts', nth_error c1 y = Some (Some ts') /\ same_sides t0 y z) ->
  (forall z z' ts ts', nth_error c0 z = Some (Some ts) -> nth_error c0 z' = Some (Some ts') -> same_sides t0 z z' -> z = z') ->
  (forall y ts, nth_error c1 y = Some (Some ts) -> ts <> []) ->
  NoDup (map tk_pos (flat_map cell_tokens c1)) -> flat_map cell_tokens c1 = flat_map cell_tokens c0.
Proof.
  intros t0 c0 c1 A B U NE N.
  set (R := fun y z => (exists ts, nth_error c1 y = Some (Some ts)) /\ (exists ts, nth_error c0 z = Some (Some ts)) /\ same_sides t0 y z).
  assert (SS : forall y z z', same_sides t0 y z -> same_sides t0 y z' -> same_sides t0 z z').
  { intros y z z' S1 S2 x X. destruct (S1 x X) as [P1 P2]. destruct (S2 x X) as [Q1 Q2]. split; [rewrite <- P1; exact Q1|rewrite <- P2; exact Q2]. }
  assert (SM : forall y z ts, R y z -> nth_error c1 y = Some (Some ts) -> nth_error c0 z = Some (Some ts)).
  { intros y z ts [_ [[us Z] S]] Y. destruct (A y ts Y) as [z' [Z' S']]. replace z with z'; [exact Z'|]. apply (U z' z ts us Z' Z). apply (SS y); assumption. }
  assert (M1 : forall y y' z z', R y z -> R y' z' -> y < y' -> z < z').
  { intros y y' z z' R1 R2 L. destruct (Nat.lt_ge_cases z z') as [|G]; [assumption|]. exfalso.
    pose proof R1 as [[ts Y] [[us Z] S1]]. pose proof R2 as [[ts' Y'] [[us' Z'] S2]].
    assert (E : z' = z).
    { apply (U z' z us' us Z' Z). intros x X. destruct (S1 x X) as [P1 P2]. destruct (S2 x X) as [Q1 Q2]. split; lia. }
    subst z'. pose proof (SM y z ts R1 Y) as E1. pose proof (SM y' z ts' R2 Y') as E2. assert (ts' = ts) by congruence. subst ts'.
    pose proof (once_cells c1 y y' ts N (NE y ts Y) Y Y'). lia. }
  rewrite (filled_tokens c1 0), (filled_tokens c0 0). f_equal. apply (same_order R); try apply filled_sorted.
  - intros y ts Hi. apply filled_In in Hi as [j [-> Y]]. cbn [Nat.add]. destruct (A j ts Y) as [z [Z S]]. exists z. split; [apply filled_In; exists z; auto|].
    split; [exists ts; exact Y|]. split; [exists ts; exact Z|exact S].
  - intros z ts Hi. apply filled_In in Hi as [j [-> Z]]. cbn [Nat.add]. destruct (B j ts Z) as [y [ts' [Y S]]].
    assert (RY : R y j) by (split; [exists ts'; exact Y|split; [exists ts; exact Z|exact S]]).
    pose proof (SM y j ts' RY Y) as E. assert (ts' = ts) by congruence. subst ts'. exists y. split; [apply filled_In; exists y; auto|exact RY].
  - intros y y' z z' R1 R2. split; [apply M1; assumption|]. intros L. destruct (Nat.lt_trichotomy y y') as [H|[->|H]]; [exact H| |pose proof (M1 y' y z' z R2 R1 H); lia].
    exfalso. destruct R1 as [_ [[us Z] S1]]. destruct R2 as [_ [[us' Z'] S2]]. pose proof (U z z' us us' Z Z' (SS y' z z' S1 S2)). lia.
Qed.
