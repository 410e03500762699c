(** The best ways, and that there is only one that keeps to the order of preference. *)
From Verif Require Import Py Lib WalkSpec WalkProof ChosenSpec.
From Coq Require Import Sorted.
Open Scope list_scope.
Open Scope nat_scope.

Section Ways.
  Variable M : nat -> nat -> bool.
  Definition ends (ms : list move) (y x : nat) : Prop := at_token (walk M ms) = y /\ at_rank (walk M ms) = x.
  Definition the_best (ms : list move) : Prop := forall ms' y x, ends ms y x -> ends ms' y x -> (points (walk M ms') <= points (walk M ms))%Z.
  Let gain (b : bool) : Z := if b then 1%Z else (-1)%Z.

  Lemma snoc_points : forall ms mv y x, ends (ms ++ [mv]) y x -> points (walk M (ms ++ [mv])) = (points (walk M ms) + gain (is_hit M mv y x))%Z.
  Proof. intros ms mv y x [A B]. rewrite walk_snoc in *. unfold step in *. cbn [points at_token at_rank] in *. rewrite A, B. unfold gain. destruct (is_hit M mv y x); lia. Qed.
  Lemma snoc_ends : forall ms mv y x, ends (ms ++ [mv]) y x -> exists y' x', ends ms y' x' /\
    y = match mv with Omit => y' | _ => S y' end /\ x = match mv with Add => x' | _ => S x' end.
  Proof. intros ms mv y x [A B]. rewrite walk_snoc in *. cbn [step at_token at_rank] in *. exists (at_token (walk M ms)), (at_rank (walk M ms)). split; [split; reflexivity|auto]. Qed.
  Lemma ends_snoc : forall ms mv y x, ends ms y x -> ends (ms ++ [mv]) (match mv with Omit => y | _ => S y end) (match mv with Add => x | _ => S x end).
  Proof. intros ms mv y x [A B]. unfold ends. rewrite walk_snoc. cbn [step at_token at_rank]. rewrite A, B. auto. Qed.

  Lemma preferred_front : forall ms m, preferred M (ms ++ [m]) -> preferred M ms.
  Proof. intros ms m PF before mv after E. subst ms. apply (PF before mv (after ++ [m])). rewrite <- app_assoc. reflexivity. Qed.
  Lemma best_front : forall ms m, the_best (ms ++ [m]) -> the_best ms.
  Proof.
    intros ms m H ms' y x E E'. pose proof (ends_snoc ms m y x E) as F. pose proof (ends_snoc ms' m y x E') as F'.
    specialize (H (ms' ++ [m]) _ _ F F'). rewrite (snoc_points _ _ _ _ F), (snoc_points _ _ _ _ F') in H. lia.
  Qed.

  Theorem one_way : forall ms ms' y x, ends ms y x -> ends ms' y x -> the_best ms -> the_best ms' -> preferred M ms -> preferred M ms' -> ms = ms'.
  Proof.
    assert (NIL : forall ms mv, ends [] (at_token (walk M (ms ++ [mv]))) (at_rank (walk M (ms ++ [mv]))) -> False).
    { intros ms mv [A B]. rewrite walk_snoc in *. destruct mv; cbn [step at_token at_rank walk fold_left] in *; lia. }
    induction ms as [|m ms IH] using rev_ind; intros ms' y x E E' B B' P P'; destruct ms' as [|m' ms' _] using rev_ind; [reflexivity| | |].
    - exfalso. apply (NIL ms' m'). destruct E' as [-> ->]. exact E.
    - exfalso. apply (NIL ms m). destruct E as [-> ->]. exact E'.
    - assert (m = m').
      { pose proof (B _ _ _ E E') as Q. pose proof (B' _ _ _ E' E) as Q'.
        assert (S1 : sooner m' m -> False).
        { intros SO. destruct E as [E1 E2], E' as [E3 E4]. assert (L := P ms m [] eq_refl m' SO ms'). rewrite E1, E2, E3, E4 in L. specialize (L eq_refl eq_refl). lia. }
        assert (S2 : sooner m m' -> False).
        { intros SO. destruct E as [E1 E2], E' as [E3 E4]. assert (L := P' ms' m' [] eq_refl m SO ms). rewrite E1, E2, E3, E4 in L. specialize (L eq_refl eq_refl). lia. }
        destruct m, m'; try reflexivity; exfalso; first [apply S1; exact I|apply S2; exact I]. }
      subst m'. f_equal. destruct (snoc_ends _ _ _ _ E) as [y1 [x1 [F1 [F2 F3]]]]. destruct (snoc_ends _ _ _ _ E') as [y2 [x2 [F4 [F5 F6]]]].
      assert (y1 = y2 /\ x1 = x2) as [<- <-] by (destruct m; lia).
      apply (IH ms' y1 x1); auto; eauto using best_front, preferred_front.
  Qed.

  (** The best way of the recursion is best, and keeps to the order of preference. *)
  Definition good_way (y x : nat) (r : Z * list move) : Prop :=
    ends (snd r) y x /\ points (walk M (snd r)) = fst r /\ the_best (snd r) /\ preferred M (snd r).

  Lemma best_of : forall y x r, ends (snd r) y x -> points (walk M (snd r)) = fst r -> (forall ms', ends ms' y x -> (points (walk M ms') <= fst r)%Z) -> the_best (snd r).
  Proof. intros y x r [E1 E2] Q H ms' y' x' [E3 E4] E'. rewrite Q. apply H. rewrite <- E1, <- E2, E3, E4. exact E'. Qed.

  Lemma then_facts : forall m y x r y' x', good_way y' x' r -> y = match m with Omit => y' | _ => S y' end -> x = match m with Add => x' | _ => S x' end ->
    ends (snd (and_then M m y x r)) y x /\ points (walk M (snd (and_then M m y x r))) = fst (and_then M m y x r) /\
    (forall ms', ends (ms' ++ [m]) y x -> (points (walk M (ms' ++ [m])) <= fst (and_then M m y x r))%Z).
  Proof.
    intros m y x r y' x' [E [Q [B _]]] -> ->. cbn [and_then fst snd]. pose proof (ends_snoc (snd r) m y' x' E) as F. split; [exact F|].
    split; [rewrite (snoc_points _ _ _ _ F), Q; reflexivity|]. intros ms' F'. destruct (snoc_ends _ _ _ _ F') as [y2 [x2 [F4 [F5 F6]]]].
    assert (y2 = y' /\ x2 = x') as [-> ->] by (destruct m; lia).
    rewrite (snoc_points _ _ _ _ F'). specialize (B ms' y' x' E F4). rewrite Q in B. unfold gain. lia.
  Qed.

  Lemma then_preferred : forall m y x r y' x', good_way y' x' r -> y = match m with Omit => y' | _ => S y' end -> x = match m with Add => x' | _ => S x' end ->
    (forall m' ms', sooner m' m -> ends (ms' ++ [m']) y x -> (points (walk M (ms' ++ [m'])) < fst (and_then M m y x r))%Z) ->
    preferred M (snd (and_then M m y x r)).
  Proof.
    intros m y x r y' x' G Y X H. destruct (then_facts m y x r y' x' G Y X) as [[E1 E2] [Q _]]. destruct G as [_ [_ [_ P]]].
    intros before mv after EQ m' SO other R T. destruct after as [|a after _] using rev_ind.
    - cbn [and_then snd] in EQ. pose proof EQ as EQ'. apply app_inj_tail in EQ as [<- <-]. cbn [and_then snd] in E1, E2, Q. rewrite E2 in R. rewrite E1 in T.
      cbn [and_then] in H. rewrite Q. apply H; [exact SO|split; assumption].
    - cbn [and_then snd] in EQ. rewrite app_comm_cons, app_assoc in EQ. apply app_inj_tail in EQ as [EQ _]. exact (P before mv after EQ m' SO other R T).
  Qed.

  Theorem best_way_good : forall y x, good_way y x (best_way M y x).
  Proof.
    induction y as [|y IHy].
    - induction x as [|x IHx].
      + cbn. split; [split; reflexivity|]. split; [reflexivity|]. split.
        * intros ms' y x [E3 E4] E. cbn in E3, E4. subst y x. destruct ms' as [|m ms' _] using rev_ind; [apply Z.le_refl|]. exfalso.
          destruct (snoc_ends _ _ _ _ E) as [y2 [x2 [_ [F1 F2]]]]. destruct m; discriminate.
        * intros before mv after E. destruct before; discriminate.
      + change (best_way M 0 (S x)) with (and_then M Omit 0 (S x) (best_way M 0 x)).
        destruct (then_facts Omit 0 (S x) _ 0 x IHx eq_refl eq_refl) as [A [B C]]. split; [exact A|]. split; [exact B|]. split.
        * apply (best_of 0 (S x)); auto. intros ms' E. destruct ms' as [|m ms' _] using rev_ind; [destruct E; discriminate|].
          destruct m; [|apply C; exact E|]; destruct (snoc_ends _ _ _ _ E) as [y2 [x2 [_ [F _]]]]; discriminate.
        * apply (then_preferred Omit 0 (S x) _ 0 x); auto. intros [] ms' SO E; try destruct SO. destruct (snoc_ends _ _ _ _ E) as [y2 [x2 [_ [F _]]]]; discriminate.
    - induction x as [|x IHx].
      + change (best_way M (S y) 0) with (and_then M Add (S y) 0 (best_way M y 0)).
        destruct (then_facts Add (S y) 0 _ y 0 (IHy 0) eq_refl eq_refl) as [A [B C]]. split; [exact A|]. split; [exact B|]. split.
        * apply (best_of (S y) 0); auto. intros ms' E. destruct ms' as [|m ms' _] using rev_ind; [destruct E; discriminate|].
          destruct m; [| |apply C; exact E]; destruct (snoc_ends _ _ _ _ E) as [y2 [x2 [_ [_ F]]]]; discriminate.
        * apply (then_preferred Add (S y) 0 _ y 0); auto. intros [] ms' SO E; try destruct SO; destruct (snoc_ends _ _ _ _ E) as [y2 [x2 [_ [_ F]]]]; discriminate.
      + change (best_way M (S y) (S x)) with (unless_better (unless_better (and_then M Pair (S y) (S x) (best_way M y x)) (and_then M Omit (S y) (S x) (best_way M (S y) x))) (and_then M Add (S y) (S x) (best_way M y (S x)))).
        destruct (then_facts Pair (S y) (S x) _ y x (IHy x) eq_refl eq_refl) as [A1 [B1 C1]].
        destruct (then_facts Omit (S y) (S x) _ (S y) x IHx eq_refl eq_refl) as [A2 [B2 C2]].
        destruct (then_facts Add (S y) (S x) _ y (S x) (IHy (S x)) eq_refl eq_refl) as [A3 [B3 C3]].
        pose proof (then_preferred Pair (S y) (S x) _ y x (IHy x) eq_refl eq_refl) as P1.
        pose proof (then_preferred Omit (S y) (S x) _ (S y) x IHx eq_refl eq_refl) as P2.
        pose proof (then_preferred Add (S y) (S x) _ y (S x) (IHy (S x)) eq_refl eq_refl) as P3.
        set (r1 := and_then M Pair _ _ _) in *. set (r2 := and_then M Omit _ _ _) in *. set (r3 := and_then M Add _ _ _) in *.
        assert (K : forall r, (r = r1 \/ r = r2 \/ r = r3) -> (fst r1 <= fst r)%Z -> (fst r2 <= fst r)%Z -> (fst r3 <= fst r)%Z -> preferred M (snd r) -> good_way (S y) (S x) r).
        { intros r HR L1 L2 L3 P. assert (E : ends (snd r) (S y) (S x) /\ points (walk M (snd r)) = fst r) by (destruct HR as [->|[->| ->]]; auto). destruct E as [E Q].
          split; [exact E|]. split; [exact Q|]. split; [|exact P]. apply (best_of (S y) (S x)); auto. intros ms' E'. destruct ms' as [|m ms' _] using rev_ind; [destruct E'; discriminate|].
          destruct m; [specialize (C1 ms' E')|specialize (C2 ms' E')|specialize (C3 ms' E')]; lia. }
        unfold unless_better at 2. destruct (Z.ltb_spec (fst r1) (fst r2)) as [L|L]; unfold unless_better.
        * destruct (Z.ltb_spec (fst r2) (fst r3)) as [L'|L'].
          -- apply K; auto; try lia. apply P3. intros [] ms' SO E; try destruct SO; [specialize (C1 ms' E)|specialize (C2 ms' E)]; lia.
          -- apply K; auto; try lia. apply P2. intros [] ms' SO E; try destruct SO. specialize (C1 ms' E). lia.
        * destruct (Z.ltb_spec (fst r1) (fst r3)) as [L'|L'].
          -- apply K; auto; try lia. apply P3. intros [] ms' SO E; try destruct SO; [specialize (C1 ms' E)|specialize (C2 ms' E)]; lia.
          -- apply K; auto; try lia. apply P1. intros [] ms' SO E; destruct SO.
  Qed.

  Lemma walk_met : forall ms, StronglySorted (fun p q => fst p < fst q /\ snd p <= snd q) (met (walk M ms)) /\
    forall p, In p (met (walk M ms)) -> M (fst p) (snd p) = true /\ fst p <= at_token (walk M ms) /\ snd p <= at_rank (walk M ms).
  Proof.
    induction ms as [|m ms [ST H]] using rev_ind; [split; [constructor|intros p []]|]. rewrite walk_snoc. unfold step. cbn [met at_token at_rank].
    destruct (is_hit M m _ _) eqn:E.
    - split.
      + assert (G : forall l p, StronglySorted (fun p q : nat * nat => fst p < fst q /\ snd p <= snd q) l -> (forall q, In q l -> fst q < fst p /\ snd q <= snd p) ->
          StronglySorted (fun p q : nat * nat => fst p < fst q /\ snd p <= snd q) (l ++ [p])).
        { clear. induction l as [|q l IH]; intros p ST H; cbn [app]; [repeat constructor|]. inversion ST as [|? ? S1 S2]; subst. constructor; [apply IH; auto; intros; apply H; right; assumption|].
          apply Forall_app. split; [assumption|]. constructor; [apply H; left; reflexivity|constructor]. }
        apply G; [exact ST|]. intros q Hq. apply H in Hq. cbn [fst snd]. destruct m; cbn [is_hit] in E; [|discriminate|]; lia.
      + intros p Hp. apply in_app_or in Hp as [Hp|[<-|[]]].
        * apply H in Hp as [A [B C]]. split; [exact A|]. destruct m; lia.
        * cbn [fst snd]. split; [|lia]. destruct m; cbn [is_hit] in E; [exact E|discriminate|]. apply andb_true_iff in E. apply E.
    - split; [exact ST|]. intros p Hp. apply H in Hp as [A [B C]]. split; [exact A|]. destruct m; lia.
  Qed.
End Ways.

Lemma walk_ext : forall M M', (forall y x, M y x = M' y x) -> forall ms, walk M ms = walk M' ms.
Proof.
  intros M M' H ms. induction ms as [|m ms IH] using rev_ind; [reflexivity|]. rewrite !walk_snoc, IH. unfold step.
  destruct m; cbn [is_hit]; rewrite ?H; reflexivity.
Qed.
