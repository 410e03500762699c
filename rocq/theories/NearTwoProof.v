(** Near matching with at most two witnesses keeps every row. *)
From Verif Require Import Py TokenModel SuffixModel IndexModel GraphModel AlignModel TableModel NearModel ExportModel
  CollateModel Lib GraphSpec GraphProof MergeProof RankProof AlignerProof TableSpec TableProof AlignProof CollateProof CollateSpec ResultProof StageProof OutputProof NearProof.
From Coq Require Import Permutation Relations QArith.
Open Scope list_scope.
Open Scope nat_scope.

Lemma app_inj_NoDup : forall {A} (x : A) l1 l2 k1 k2, NoDup (l1 ++ x :: l2) -> l1 ++ x :: l2 = k1 ++ x :: k2 -> l1 = k1 /\ l2 = k2.
Proof.
  intros A x l1 l2 k1 k2 N E. apply NoDup_split_unique with x; [assumption|assumption].
Qed.

Lemma pairs_pred : forall {A} (l : list A) x u y, NoDup l -> In (x, y) (pairs l) -> In (u, y) (pairs l) -> u = x.
Proof.
  intros A l x u y N H1 H2. apply pairs_In in H1 as [a1 [a2 E1]], H2 as [b1 [b2 E2]].
  assert (E : (a1 ++ [x]) ++ y :: a2 = (b1 ++ [u]) ++ y :: b2) by (rewrite <- !app_assoc; cbn [app]; congruence).
  assert (N' : NoDup ((a1 ++ [x]) ++ y :: a2)) by (rewrite <- app_assoc; cbn [app]; congruence).
  destruct (app_inj_NoDup y _ _ _ _ N' E) as [Q _]. apply app_inj_tail in Q as [_ Q]. congruence.
Qed.
Lemma pairs_succ : forall {A} (l : list A) x u y, NoDup l -> In (y, x) (pairs l) -> In (y, u) (pairs l) -> u = x.
Proof.
  intros A l x u y N H1 H2. apply pairs_In in H1 as [a1 [a2 E1]], H2 as [b1 [b2 E2]]. rewrite E1 in *.
  destruct (app_inj_NoDup y _ _ _ _ N E2) as [_ Q]. congruence.
Qed.

Lemma seq_sorted : forall n s, StronglySorted lt (seq s n).
Proof. induction n; intros s; simpl; constructor; auto. rewrite Forall_forall. intros x Hx. apply in_seq in Hx. lia. Qed.

(** The first and the last element with a decidable property. *)
Lemma first_such : forall (P : vid -> Prop) (dec : forall x, {P x} + {~ P x}) l, Exists P l ->
  exists l1 x l2, l = l1 ++ x :: l2 /\ P x /\ forall y, In y l1 -> ~ P y.
Proof.
  intros P dec l H. induction l as [|x l IH]; [inversion H|]. destruct (dec x) as [Px|Nx].
  - exists [], x, l. split; [reflexivity|]. split; [assumption|]. intros y [].
  - inversion H as [? ? Q|? ? Q]; subst; [contradiction|]. destruct (IH Q) as [l1 [y [l2 [-> [Py Ny]]]]].
    exists (x :: l1), y, l2. split; [reflexivity|]. split; [assumption|]. intros z [<-|Hz]; auto.
Qed.
Lemma last_such : forall (P : vid -> Prop) (dec : forall x, {P x} + {~ P x}) l, Exists P l ->
  exists l1 x l2, l = l1 ++ x :: l2 /\ P x /\ forall y, In y l2 -> ~ P y.
Proof.
  intros P dec l H. induction l as [|x l IH]; [inversion H|].
  destruct (Exists_dec P l dec) as [E|E].
  - destruct (IH E) as [l1 [y [l2 [-> [Py Ny]]]]]. exists (x :: l1), y, l2. repeat split; auto.
  - exists [], x, l. inversion H as [? ? Q|? ? Q]; subst; [|contradiction]. split; [reflexivity|]. split; [assumption|].
    intros y Hy Py. apply E. apply Exists_exists. eauto.
Qed.

Section Two.
  Variables (g : graph) (W : list wpath) (rk : vid -> nat) (m : nat) (l0 : list vid).
  Hypothesis GI : graph_of g W.
  Hypothesis NW : W <> [].
  Hypothesis RO : rank_ok g rk m l0.

  Definition inc (f : vid -> nat) : Prop := forall u v, edge g u v -> f u < f v.
  Lemma rk_inc : inc rk.
  Proof. intros u v H. apply (ro_edge _ _ _ _ RO u v H). Qed.

  Section Lists.
    Variables (LA LB : list vid) (mA mB : list vid).
    Hypothesis NA : NoDup LA.
    Hypothesis NB : NoDup LB.
    Hypothesis SA : LA = v_start :: mA ++ [v_end].
    Hypothesis SB : LB = v_start :: mB ++ [v_end].
    Hypothesis EG : forall u v, edge g u v <-> In (u, v) (pairs LA) \/ In (u, v) (pairs LB).

    Lemma inc_list : forall (L : list vid), (forall u v, In (u, v) (pairs L) -> edge g u v) ->
      forall f a u b v d, inc f -> L = a ++ u :: b ++ v :: d -> f u < f v.
    Proof.
      intros L HL f a u b. revert a u. induction b as [|x b IH]; intros a u v d I E.
      - apply I, HL. apply pairs_In. exists a, d. assumption.
      - apply Nat.lt_trans with (f x); [apply I, HL; apply pairs_In; exists a, (b ++ v :: d); assumption|].
        apply (IH (a ++ [u]) x v d I). rewrite <- app_assoc. exact E.
    Qed.
    Lemma inc_A : forall f a u b v d, inc f -> LA = a ++ u :: b ++ v :: d -> f u < f v.
    Proof. apply inc_list. intros u v H. apply EG. left. assumption. Qed.
    Lemma inc_B : forall f a u b v d, inc f -> LB = a ++ u :: b ++ v :: d -> f u < f v.
    Proof. apply inc_list. intros u v H. apply EG. right. assumption. Qed.

    (** A vertex on one of the two paths only comes right after its predecessor. *)
    Lemma alone_A : forall x y, In (x, y) (pairs LA) -> ~ In y LB -> rk y = S (rk x).
    Proof.
      intros x y H N. assert (E : edge g x y) by (apply EG; left; assumption).
      pose proof (ro_edge _ _ _ _ RO x y E) as L. pose proof (ro_eq _ _ _ _ RO y (proj2 (graph_edge_verts g W x y GI E))) as Q.
      destruct (rk y) as [|k] eqn:K; [lia|]. destruct (rank_of_pos g rk y k) as [u [U1 U2]]; [congruence|].
      apply EG in U1 as [U1|U1]; [|apply in_pairs_r in U1; contradiction]. apply (pairs_pred LA x u y NA H) in U1. subst u. lia.
    Qed.
    Lemma alone_B : forall x y, In (x, y) (pairs LB) -> ~ In y LA -> rk y = S (rk x).
    Proof.
      intros x y H N. assert (E : edge g x y) by (apply EG; right; assumption).
      pose proof (ro_edge _ _ _ _ RO x y E) as L. pose proof (ro_eq _ _ _ _ RO y (proj2 (graph_edge_verts g W x y GI E))) as Q.
      destruct (rk y) as [|k] eqn:K; [lia|]. destruct (rank_of_pos g rk y k) as [u [U1 U2]]; [congruence|].
      apply EG in U1 as [U1|U1]; [apply in_pairs_r in U1; contradiction|]. apply (pairs_pred LB x u y NB H) in U1. subst u. lia.
    Qed.

    Lemma tight_pinned : forall l z, (forall x y, In (x, y) (pairs (l ++ [z])) -> edge g x y /\ rk y = S (rk x)) -> pinned g rk z ->
      forall x, In x l -> pinned g rk x.
    Proof.
      induction l as [|a l IH]; intros z H P x Hx; [contradiction|].
      assert (T : forall y, In y l -> pinned g rk y).
      { apply (IH z); [|assumption]. intros u v Huv. apply H. destruct l; [destruct Huv|]. cbn [app] in *. rewrite pairs_cons. right. assumption. }
      destruct Hx as [<-|Hx]; [|auto]. destruct l as [|b l].
      - destruct (H a z) as [E R]; [left; reflexivity|]. apply pin_step with z; assumption.
      - destruct (H a b) as [E R]; [cbn [app]; rewrite pairs_cons; left; reflexivity|]. apply pin_step with b; auto. apply T. left. reflexivity.
    Qed.

    Lemma run_tight : forall (L : list vid) a1 s as_ t a2, L = a1 ++ s :: as_ ++ t :: a2 -> NoDup L ->
      (forall x y, In (x, y) (pairs L) -> In y as_ -> rk y = S (rk x)) ->
      (forall u, In (u, t) (pairs L) -> rk t = S (rk u)) -> (forall u v, In (u, v) (pairs L) -> edge g u v) ->
      forall x y, In (x, y) (pairs ((s :: as_) ++ [t])) -> edge g x y /\ rk y = S (rk x).
    Proof.
      intros L a1 s as_ t a2 E N H1 H2 H3 x y H.
      assert (HL : In (x, y) (pairs L)).
      { apply pairs_In in H as [k1 [k2 K]]. apply pairs_In. exists (a1 ++ k1), (k2 ++ a2). rewrite E.
        replace (s :: as_ ++ t :: a2) with (((s :: as_) ++ [t]) ++ a2) by (cbn [app]; rewrite <- app_assoc; reflexivity).
        rewrite K, <- !app_assoc. reflexivity. }
      split; [apply H3; assumption|]. apply pairs_In in H as [k1 [k2 K]]. 
      assert (Hy : In y (as_ ++ [t])).
      { destruct k1 as [|c k1]; cbn [app] in K; injection K as K1 K; rewrite K; [left; reflexivity|]. apply in_or_app. right. right. left. reflexivity. }
      apply in_app_or in Hy as [Hy|[<-|[]]]; [apply H1; assumption|apply H2; assumption].
    Qed.

    (** Between two neighbouring shared vertices one of the two sides is pinned. *)
    Lemma section_pinned : forall a1 s as_ t a2 b1 bs b2, LA = a1 ++ s :: as_ ++ t :: a2 -> LB = b1 ++ s :: bs ++ t :: b2 ->
      (forall x, In x as_ -> ~ In x LB) -> (forall x, In x bs -> ~ In x LA) -> pinned g rk t ->
      pinned g rk s /\ ((forall x, In x as_ -> pinned g rk x) \/ (forall x, In x bs -> pinned g rk x)).
    Proof.
      intros a1 s as_ t a2 b1 bs b2 EA EB UA UB P.
      assert (PT : exists u, In (u, t) (pairs LA)).
      { destruct (exists_last (l := s :: as_)) as [q [u Q]]; [discriminate|]. exists u. apply pairs_In. exists (a1 ++ q), a2. rewrite EA.
        replace (s :: as_ ++ t :: a2) with ((s :: as_) ++ t :: a2) by reflexivity. rewrite Q, <- !app_assoc. reflexivity. }
      destruct PT as [u0 U0]. assert (E0 : edge g u0 t) by (apply EG; left; assumption).
      pose proof (ro_edge _ _ _ _ RO u0 t E0) as L. pose proof (ro_eq _ _ _ _ RO t (proj2 (graph_edge_verts g W u0 t GI E0))) as Q.
      destruct (rk t) as [|k] eqn:K; [lia|]. destruct (rank_of_pos g rk t k) as [u [U1 U2]]; [congruence|].
      apply EG in U1 as [U1|U1].
      - assert (T : forall x, In x (s :: as_) -> pinned g rk x).
        { apply (tight_pinned (s :: as_) t); [|assumption]. apply (run_tight LA a1 s as_ t a2 EA NA).
          - intros x y H Hy. apply alone_A; auto.
          - intros u' H. rewrite (pairs_pred LA u u' t NA U1 H). lia.
          - intros x y H. apply EG. left. assumption. }
        split; [apply T; left; reflexivity|]. left. intros x Hx. apply T. right. assumption.
      - assert (T : forall x, In x (s :: bs) -> pinned g rk x).
        { apply (tight_pinned (s :: bs) t); [|assumption]. apply (run_tight LB b1 s bs t b2 EB NB).
          - intros x y H Hy. apply alone_B; auto.
          - intros u' H. rewrite (pairs_pred LB u u' t NB U1 H). lia.
          - intros x y H. apply EG. right. assumption. }
        split; [apply T; left; reflexivity|]. right. intros x Hx. apply T. right. assumption.
    Qed.

    Lemma In_dec_B : forall x, {In x LB} + {~ In x LB}. Proof. intros. apply in_dec. apply Nat.eq_dec. Qed.
    Lemma In_dec_A : forall x, {In x LA} + {~ In x LA}. Proof. intros. apply in_dec. apply Nat.eq_dec. Qed.
    Lemma end_A : forall a s A2, LA = a ++ s :: A2 -> s <> v_end -> In v_end A2.
    Proof.
      intros a s A2 E N. destruct (exists_last (l := s :: A2)) as [q [u Q]]; [discriminate|].
      rewrite Q in E. rewrite SA in E. change (v_start :: mA ++ [v_end]) with ((v_start :: mA) ++ [v_end]) in E.
      rewrite app_assoc in E. apply app_inj_tail in E as [_ E]. subst u.
      destruct q as [|c q]; cbn [app] in Q; injection Q as Q1 Q2; [congruence|]. rewrite Q2. apply in_or_app. right. left. reflexivity.
    Qed.
    Lemma end_B : In v_end LB.
    Proof. rewrite SB. right. apply in_or_app. right. left. reflexivity. Qed.

    (** The next shared vertex. *)
    Lemma next_shared : forall s, In s LA -> In s LB -> s <> v_end ->
      exists a1 as_ t a2 b1 bs b2, LA = a1 ++ s :: as_ ++ t :: a2 /\ LB = b1 ++ s :: bs ++ t :: b2 /\
        (forall x, In x as_ -> ~ In x LB) /\ (forall x, In x bs -> ~ In x LA).
    Proof.
      intros s HA HB N. apply in_split in HA as [a1 [A2 EA]], HB as [b1 [B2 EB]].
      destruct (first_such (fun x => In x LB) In_dec_B A2) as [as_ [t [a2 [E2 [T1 T2]]]]].
      { apply Exists_exists. exists v_end. split; [apply (end_A a1 s); assumption|apply end_B]. }
      subst A2. assert (Lt : rk s < rk t) by (apply (inc_A rk a1 s as_ t a2 rk_inc EA)).
      assert (IT : In t B2).
      { rewrite EB in T1. apply in_app_or in T1 as [T1|[T1|T1]]; [|subst; lia|assumption]. exfalso.
        apply in_split in T1 as [c1 [c2 E]]. subst b1. rewrite <- app_assoc in EB. cbn [app] in EB.
        pose proof (inc_B rk c1 t c2 s B2 rk_inc EB). lia. }
      apply in_split in IT as [bs [b2 ->]]. exists a1, as_, t, a2, b1, bs, b2. split; [assumption|]. split; [assumption|]. split; [assumption|].
      intros x Hx HA. apply in_split in Hx as [c1 [c2 E]]. subst bs.
      assert (R1 : rk s < rk x) by (apply (inc_B rk b1 s c1 x (c2 ++ t :: b2) rk_inc); rewrite EB, <- !app_assoc; reflexivity).
      assert (R2 : rk x < rk t) by (apply (inc_B rk (b1 ++ s :: c1) x c2 t b2 rk_inc); rewrite EB, <- !app_assoc; cbn [app]; rewrite <- ?app_assoc; reflexivity).
      assert (IB : In x LB) by (rewrite EB; apply in_or_app; right; right; apply in_or_app; left; apply in_or_app; right; left; reflexivity).
      rewrite EA in HA. apply in_app_or in HA as [HA|[HA|HA]]; [|subst; lia|].
      - apply in_split in HA as [d1 [d2 E]]. subst a1. rewrite <- app_assoc in EA. cbn [app] in EA.
        pose proof (inc_A rk d1 x d2 s _ rk_inc EA). lia.
      - apply in_app_or in HA as [HA|[HA|HA]]; [apply (T2 x HA IB)|subst; lia|].
        apply in_split in HA as [d1 [d2 E]]. subst a2.
        assert (rk t < rk x) by (apply (inc_A rk (a1 ++ s :: as_) t d1 x d2 rk_inc); rewrite EA, <- !app_assoc; reflexivity). lia.
    Qed.

    Lemma shared_pinned : forall s, In s LA -> In s LB -> pinned g rk s.
    Proof.
      assert (G : forall n s, m - rk s < n -> In s LA -> In s LB -> pinned g rk s).
      { induction n as [|n IH]; intros s L HA HB; [lia|]. destruct (Nat.eq_dec s v_end) as [->|N]; [constructor|].
        destruct (next_shared s HA HB N) as [a1 [as_ [t [a2 [b1 [bs [b2 [EA [EB [UA UB]]]]]]]]]].
        assert (Lt : rk s < rk t) by (apply (inc_A rk a1 s as_ t a2 rk_inc EA)).
        assert (TA : In t LA) by (rewrite EA; apply in_or_app; right; right; apply in_or_app; right; left; reflexivity).
        assert (TB : In t LB) by (rewrite EB; apply in_or_app; right; right; apply in_or_app; right; left; reflexivity).
        assert (TV : In s (vertices g) /\ In t (vertices g)).
        { destruct (exists_last (l := s :: as_)) as [q [u Q]]; [discriminate|].
          assert (HU : In (u, t) (pairs LA)).
          { apply pairs_In. exists (a1 ++ q), a2. rewrite EA.
            replace (s :: as_ ++ t :: a2) with ((s :: as_) ++ t :: a2) by reflexivity. rewrite Q, <- !app_assoc. reflexivity. }
          split; [|apply (graph_edge_verts g W u t GI); apply EG; left; assumption].
          assert (exists z, In (s, z) (pairs LA)) as [z Hz].
          { destruct as_ as [|z as_]; [exists t|exists z]; apply pairs_In; rewrite EA; [exists a1, a2|exists a1, (as_ ++ t :: a2)]; reflexivity. }
          apply (graph_edge_verts g W s z GI). apply EG. left. assumption. }
        pose proof (ro_lt _ _ _ _ RO t (proj2 TV)). 
        apply (section_pinned a1 s as_ t a2 b1 bs b2 EA EB UA UB). apply IH; [lia|assumption|assumption]. }
      intros s. apply (G (S (m - rk s))). lia.
    Qed.

    (** Two vertices off the longest paths, on different paths, are never near each other. *)
    Lemma apart_AB : forall src w, In src LB -> ~ In src LA -> In w LA -> ~ In w LB -> ~ pinned g rk src ->
      pinned g rk w \/ (forall f, inc f -> f w < f src) \/ (forall f v, inc f -> edge g src v -> f v <= f w).
    Proof.
      intros src w S1 S2 W1 W2 PS. pose proof S1 as S1'. apply in_split in S1 as [b0 [b3 EB]].
      destruct (last_such (fun x => In x LA) In_dec_A b0) as [b1 [s [b2 [E0 [A1 A2]]]]].
      { apply Exists_exists. exists v_start. split; [|rewrite SA; left; reflexivity].
        destruct b0 as [|c b0]; [|rewrite SB in EB; cbn [app] in EB; injection EB as <- _; left; reflexivity].
        exfalso. rewrite SB in EB. cbn [app] in EB. injection EB as Q _. apply S2. rewrite SA, Q. left. reflexivity. }
      subst b0. rewrite <- app_assoc in EB. cbn [app] in EB.
      assert (HB : In s LB) by (rewrite EB; apply in_or_app; right; left; reflexivity).
      assert (Ns : s <> v_end).
      { intros C. subst s. rewrite SB in EB. change (v_start :: mB ++ [v_end]) with ((v_start :: mB) ++ v_end :: []) in EB.
        assert (N' : NoDup ((v_start :: mB) ++ v_end :: [])) by (rewrite SB in NB; exact NB).
        destruct (app_inj_NoDup v_end _ _ _ _ N' EB) as [_ Q]. destruct b2; discriminate. }
      destruct (next_shared s A1 HB Ns) as [a1 [as_ [t [a2 [b1' [bs [b2' [FA [FB [UA UB]]]]]]]]]].
      assert (NB' : NoDup (b1 ++ s :: b2 ++ src :: b3)) by (rewrite <- EB; exact NB).
      destruct (app_inj_NoDup s b1 (b2 ++ src :: b3) b1' (bs ++ t :: b2') NB') as [Q1 Q2]; [congruence|]. subst b1'.
      assert (TA : In t LA) by (rewrite FA; apply in_or_app; right; right; apply in_or_app; right; left; reflexivity).
      assert (TB : In t LB) by (rewrite FB; apply in_or_app; right; right; apply in_or_app; right; left; reflexivity).
      (* src is between s and t *)
      assert (IS : exists c1 c2, bs = c1 ++ src :: c2).
      { assert (I : In src (bs ++ t :: b2')) by (rewrite <- Q2; apply in_or_app; right; left; reflexivity).
        apply in_app_or in I as [I|[I|I]]; [apply in_split in I; exact I|subst; contradiction|]. exfalso.
        apply in_split in I as [d1 [d2 E]]. subst b2'.
        assert (E2 : b2 ++ src :: b3 = (bs ++ t :: d1) ++ src :: d2) by (rewrite Q2, <- app_assoc; reflexivity).
        assert (N2 : NoDup (b2 ++ src :: b3)) by (apply NoDup_app_iff in NB' as [_ [NB' _]]; inversion NB'; assumption).
        destruct (app_inj_NoDup src _ _ _ _ N2 E2) as [E3 _]. apply (A2 t); [|assumption]. rewrite E3. apply in_or_app. right. left. reflexivity. }
      destruct IS as [c1 [c2 Ebs]].
      destruct (section_pinned a1 s as_ t a2 b1 bs b2' FA FB UA UB (shared_pinned t TA TB)) as [_ [PA|PB]];
        [|exfalso; apply PS; apply PB; rewrite Ebs; apply in_or_app; right; left; reflexivity].
      assert (FB' : LB = b1 ++ s :: c1 ++ src :: c2 ++ t :: b2') by (rewrite FB, Ebs, <- app_assoc; reflexivity).
      assert (W1' := W1). rewrite FA in W1. apply in_app_or in W1 as [W1|[W1|W1]].
      - right. left. intros f I. apply in_split in W1 as [d1 [d2 E]]. subst a1. rewrite <- app_assoc in FA. cbn [app] in FA.
        apply Nat.lt_trans with (f s); [apply (inc_A f d1 w d2 s _ I FA)|apply (inc_B f b1 s c1 src _ I FB')].
      - exfalso. subst w. apply W2. assumption.
      - apply in_app_or in W1 as [W1|[W1|W1]].
        + left. apply PA. assumption.
        + subst w. contradiction.
        + right. right. intros f v I Ev.
          assert (f t < f w).
          { apply in_split in W1 as [d1 [d2 E]]. subst a2. apply (inc_A f (a1 ++ s :: as_) t d1 w d2 I). rewrite FA, <- !app_assoc. reflexivity. }
          assert (f v <= f t); [|lia].
          apply EG in Ev as [Ev|Ev]; [apply in_pairs_l in Ev; contradiction|].
          destruct c2 as [|c c2].
          * assert (X : In (src, t) (pairs LB)).
            { apply pairs_In. exists (b1 ++ s :: c1), b2'. rewrite FB', <- app_assoc. reflexivity. }
            rewrite (pairs_succ LB t v src NB X Ev). lia.
          * assert (X : In (src, c) (pairs LB)).
            { apply pairs_In. exists (b1 ++ s :: c1), (c2 ++ t :: b2'). rewrite FB', <- app_assoc. reflexivity. }
            rewrite (pairs_succ LB c v src NB X Ev). apply Nat.lt_le_incl.
            apply (inc_B f (b1 ++ s :: c1 ++ [src]) c c2 t b2' I). rewrite FB', <- !app_assoc. cbn [app]. rewrite <- app_assoc. reflexivity.
    Qed.

    Lemma apart_BB : forall src w, In src LB -> ~ In src LA -> In w LB -> w <> src ->
      (forall f, inc f -> f w < f src) \/ (forall f v, inc f -> edge g src v -> f v <= f w).
    Proof.
      intros src w S1 S2 W1 N. apply in_split in S1 as [b0 [b3 EB]]. assert (W1' := W1). rewrite EB in W1. apply in_app_or in W1 as [W1|[W1|W1]].
      - left. intros f I. apply in_split in W1 as [d1 [d2 E]]. subst b0. rewrite <- app_assoc in EB. apply (inc_B f d1 w d2 src b3 I EB).
      - congruence.
      - right. intros f v I Ev. apply EG in Ev as [Ev|Ev]; [apply in_pairs_l in Ev; contradiction|].
        destruct b3 as [|c b3]; [destruct W1|].
        assert (X : In (src, c) (pairs LB)) by (apply pairs_In; exists b0, b3; assumption).
        rewrite (pairs_succ LB c v src NB X Ev). destruct W1 as [W1|W1]; [subst; lia|]. apply in_split in W1 as [d1 [d2 E]]. subst b3.
        apply Nat.lt_le_incl. apply (inc_B f (b0 ++ [src]) c d1 w d2 I). rewrite EB, <- app_assoc. reflexivity.
    Qed.
  End Lists.
End Two.

(** The rank near matching gives to a vertex: that of the source of its last near edge. *)
Definition pos (rk : vid -> nat) (g' : graph) (x : vid) : nat :=
  fold_left (fun _ (e : vid * vid * Q) => rk (fst (fst e))) (in_near_edges g' x) (rk x).

Lemma pos_dset : forall (rk : vid -> nat) (l : list (vid * vid * Q)) w s q x a,
  let F := fun l => fold_left (fun _ (e : vid * vid * Q) => rk (fst (fst e))) (filter (fun e => snd (fst e) =? x) l) a in
  F (dset edge_eqb (w, s) q l) = F l \/ (x = s /\ F (dset edge_eqb (w, s) q l) = rk w).
Proof.
  intros rk l w s q x a F. unfold F. clear F. revert a. induction l as [|[[u v] q'] l IH]; intros a.
  - cbn [dset filter fst snd]. destruct (s =? x) eqn:E; [|left; reflexivity]. apply Nat.eqb_eq in E. right. split; [congruence|reflexivity].
  - cbn [dset]. destruct (edge_eqb (w, s) (u, v)) eqn:E.
    + apply edge_eqb_ok in E. injection E as -> ->. left. cbn [filter fst snd]. destruct (v =? x); reflexivity.
    + cbn [filter fst snd]. destruct (v =? x); cbn [fold_left fst]; apply IH.
Qed.

Section Dynamics.
  Variables (g : graph) (W : list wpath) (rk : vid -> nat) (m : nat) (l0 : list vid).
  Hypothesis GI : graph_of g W.
  Hypothesis NW : W <> [].
  Hypothesis RO : rank_ok g rk m l0.
  Variables (topo : graph -> res (list vid)) (ratio : str -> str -> Q).
  Hypothesis TO : topo_ok topo.
  (** Vertices off the longest paths are never near each other. *)
  Hypothesis AP : forall src w, In src (vertices g) -> In w (vertices g) -> ~ pinned g rk src -> w <> src ->
    pinned g rk w \/ (forall f, inc g f -> f w < f src) \/ (forall f v, inc g f -> edge g src v -> f v <= f w).
  Hypothesis ONE : forall src u v, ~ pinned g rk src -> edge g src u -> edge g src v -> u = v.

  Definition from_pinned (g' : graph) : Prop := forall u v q, In ((u, v), q) (g_near g') -> pinned g rk u.

  Lemma near_step_inv : forall r u v q r', near_step r ((u, v), q) = Ok r' ->
    exists ur, dget Nat.eqb u (by_vertex r) = Some ur /\ by_vertex r' = dset Nat.eqb v ur (by_vertex r).
  Proof.
    intros r u v q r' H. unfold near_step in H. apply bind_ok in H as [ur [H1 H]]. apply (dgetE_ok _) in H1.
    apply bind_ok in H as [vr [_ H]]. apply bind_ok in H as [ol [_ H]]. apply bind_ok in H as [ol' [_ H]]. apply bind_ok in H as [nl [_ H]].
    injection H as <-. exists ur. auto.
  Qed.

  Lemma near_steps : forall v es r r', ~ pinned g rk v -> (forall e, In e es -> snd (fst e) = v /\ pinned g rk (fst (fst e))) ->
    (forall x, pinned g rk x -> dget Nat.eqb x (by_vertex r) = Some (rk x)) -> foldM near_step es r = Ok r' ->
    forall k, dget Nat.eqb v (by_vertex r) = Some k ->
    dget Nat.eqb v (by_vertex r') = Some (fold_left (fun _ (e : vid * vid * Q) => rk (fst (fst e))) es k) /\
    forall x, x <> v -> dget Nat.eqb x (by_vertex r') = dget Nat.eqb x (by_vertex r).
  Proof.
    intros v es. induction es as [|[[u w] q] es IH]; intros r r' NP He PP H k D; cbn [foldM] in H; [injection H as <-; auto|].
    apply bind_ok in H as [r1 [S1 H]]. destruct (He _ (or_introl eq_refl)) as [E P]. cbn [fst snd] in E, P. subst w.
    destruct (near_step_inv _ _ _ _ _ S1) as [ur [U1 U2]]. rewrite (PP u P) in U1. injection U1 as <-.
    destruct (IH r1 r' NP) with (k := rk u) as [Q1 Q2]; auto.
    - intros e Hi. apply He. right. assumption.
    - intros x Px. rewrite U2, (dget_set _ nat_eqb_ok). destruct (v =? x) eqn:C; [apply Nat.eqb_eq in C; subst; contradiction|auto].
    - rewrite U2, (dget_set _ nat_eqb_ok), Nat.eqb_refl. reflexivity.
    - split; [assumption|]. intros x Nx. rewrite (Q2 x Nx), U2, (dget_set _ nat_eqb_ok). destruct (v =? x) eqn:C; [apply Nat.eqb_eq in C; congruence|reflexivity].
  Qed.

  Lemma pos_pinned : forall g' x, near_ok g rk g' -> pinned g rk x -> pos rk g' x = rk x.
  Proof.
    intros g' x [_ N] P. unfold pos. destruct (in_near_edges g' x) as [|[[u v] q] es] eqn:E; [reflexivity|]. exfalso.
    assert (I : In ((u, v), q) (in_near_edges g' x)) by (rewrite E; left; reflexivity). unfold in_near_edges in I. apply filter_In in I as [I1 I2].
    cbn [fst snd] in I2. apply Nat.eqb_eq in I2. subst v. destruct (N u x q I1) as [_ [_ [_ C]]]. contradiction.
  Qed.

  Lemma ranking_pos : forall g' r, near_ok g rk g' -> from_pinned g' -> ranking_of topo g' = Ok r ->
    forall x, In x (vertices g) -> dget Nat.eqb x (by_vertex r) = Some (pos rk g' x).
  Proof.
    intros g' r NO FP H. pose proof NO as [E NE].
    destruct (TO g') as [l [T1 [T2 T3]]].
    { change (vertices g') with (vertices (without_near g')). rewrite E. apply (gi_verts _ _ GI). }
    { intros u v. change (edge g' u v) with (edge (without_near g') u v). change (vertices g') with (vertices (without_near g')). rewrite E. apply (graph_edge_verts g W u v GI). }
    { change (edge_pairs g') with (edge_pairs (without_near g')). rewrite E. apply (gi_edges_nodup _ _ GI). }
    { change (acyclic g') with (acyclic (without_near g')). rewrite E. apply (gi_acyclic _ _ GI). }
    change (vertices g') with (vertices (without_near g')) in T2. rewrite E in T2.
    assert (T3' : forall u v, edge g u v -> before u v l) by (rewrite <- E; exact T3).
    assert (ND : NoDup l) by (apply Permutation_NoDup with (vertices g); [symmetry; assumption | apply (gi_verts _ _ GI)]).
    destruct (rank_fold g l ND) as [rk' [m' [R1 [R2 [R3 R4]]]]]; [intros u v Huv _; apply T3'; assumption|].
    assert (IL : forall v, In v l <-> In v (vertices g)) by (intros v; split; apply Permutation_in; [assumption | symmetry; assumption]).
    assert (RO' : rank_ok g rk' m' l).
    { constructor; auto.
      - intros v Hv. apply R2. apply IL. assumption.
      - intros k Hk. destruct (R3 k Hk) as [v [V1 V2]]. exists v. rewrite <- IL. auto.
      - intros v Hv. apply R4. apply IL. assumption.
      - intros u v Huv. pose proof (rank_of_edge g rk' u v Huv). rewrite <- R4 in H0; [lia|].
        apply T3' in Huv. apply before_In in Huv as [_ Huv]. assumption. }
    destruct (rank_unique g W rk' m' l rk m l0 GI NW RO' RO) as [EQ _].
    assert (B : foldM (rank_step g') l {| by_vertex := []; by_rank := [] |} = Ok (ranking_for rk' m' l)).
    { rewrite <- R1. rewrite <- E. reflexivity. }
    unfold ranking_of in H. rewrite T1 in H. cbn [bind] in H. rewrite B in H. cbn [bind] in H.
    assert (F : forall L r1 r2, NoDup L -> foldM (fun r v => foldM near_step (in_near_edges g' v) r) L r1 = Ok r2 ->
      (forall x, pinned g rk x -> dget Nat.eqb x (by_vertex r1) = Some (rk x)) ->
      (forall x, In x L -> dget Nat.eqb x (by_vertex r1) = Some (rk x)) ->
      forall x, (In x L -> dget Nat.eqb x (by_vertex r2) = Some (pos rk g' x)) /\
                (~ In x L -> dget Nat.eqb x (by_vertex r2) = dget Nat.eqb x (by_vertex r1))).
    { induction L as [|v L IH]; intros r1 r2 NL HF P1 PL x; cbn [foldM] in HF; [injection HF as <-; split; [intros []|reflexivity]|].
      apply bind_ok in HF as [r3 [S1 HF]]. inversion NL as [|? ? NL1 NL2]; subst.
      assert (S : dget Nat.eqb v (by_vertex r3) = Some (pos rk g' v) /\ forall y, y <> v -> dget Nat.eqb y (by_vertex r3) = dget Nat.eqb y (by_vertex r1)).
      { destruct (in_near_edges g' v) as [|e0 es0] eqn:EN.
        - cbn [foldM] in S1. injection S1 as <-. split; [|auto]. unfold pos. rewrite EN. apply PL. left. reflexivity.
        - rewrite <- EN in S1. unfold pos. apply (near_steps v (in_near_edges g' v) r1 r3); auto.
          + assert (I : In e0 (in_near_edges g' v)) by (rewrite EN; left; reflexivity). destruct e0 as [[u w] q]. unfold in_near_edges in I.
            apply filter_In in I as [I1 I2]. cbn [fst snd] in I2. apply Nat.eqb_eq in I2. subst w. apply (NE u v q I1).
          + intros [[u w] q] I. unfold in_near_edges in I. apply filter_In in I as [I1 I2]. cbn [fst snd] in *. apply Nat.eqb_eq in I2. split; [assumption|]. apply (FP u w q I1).
          + apply PL. left. reflexivity. }
      destruct S as [SV SX]. destruct (IH r3 r2 NL2 HF) with (x := x) as [Q1 Q2].
      - intros y Py. destruct (Nat.eq_dec y v) as [->|Ny]; [rewrite SV; f_equal; apply pos_pinned; assumption|rewrite SX; auto].
      - intros y Hy. rewrite SX; [apply PL; right; assumption|]. intros C. subst y. contradiction.
      - split.
        + intros [<-|Hx]; [|auto]. rewrite (Q2 NL1). assumption.
        + intros Nx. rewrite Q2 by (intros C; apply Nx; right; assumption). apply SX. intros C. apply Nx. left. congruence. }
    intros x Hx. destruct (F (rev l) (ranking_for rk' m' l) r (NoDup_rev ND) H) with (x := x) as [Q _].
    - intros y Py. pose proof (pinned_In g W rk GI y Py) as Hy. rewrite (by_vertex_get _ _ _ _ _ RO' Hy). f_equal. apply EQ. assumption.
    - intros y Hy. apply in_rev, IL in Hy. rewrite (by_vertex_get _ _ _ _ _ RO' Hy). f_equal. apply EQ. assumption.
    - apply Q. apply -> in_rev. apply IL. assumption.
  Qed.

  Record near_inv (g' : graph) (r : ranking) : Prop := {
    ni_ok : near_ok g rk g';
    ni_from : from_pinned g';
    ni_placed : placed g rk m r;
    ni_pos : forall x, In x (vertices g) -> dget Nat.eqb x (by_vertex r) = Some (pos rk g' x);
    ni_inc : inc g (pos rk g')
  }.

  Lemma near_edge_inv : forall g' r src v lb g2 r2, near_inv g' r -> edge g src v ->
    near_edge_step topo ratio (g', r) ((src, v), lb) = Ok (g2, r2) -> near_inv g2 r2.
  Proof.
    intros g' r src v lb g2 r2 NI He H. destruct NI as [NO FP PL PS IN].
    destruct (near_edge_total g W rk m l0 GI NW RO topo ratio TO g' r src v lb NO PL He) as [g3 [r3 [S1 [NO2 [PL2 C]]]]].
    rewrite H in S1. injection S1 as <- <-. destruct C as [C|C]; [injection C as -> ->; constructor; assumption|].
    destruct C as [w [q [kw [ks [kv [E2 [R2 [NP [D1 [D2 [D3 [K [Nw Hw]]]]]]]]]]]]].
    destruct (graph_edge_verts g W src v GI He) as [Hs Hv].
    rewrite (PS w Hw) in D1. rewrite (PS src Hs) in D2. rewrite (PS v Hv) in D3. injection D1 as D1. injection D2 as D2. injection D3 as D3.
    assert (PW : pinned g rk w).
    { destruct (AP src w Hs Hw NP Nw) as [Q|[Q|Q]]; [assumption|pose proof (Q _ IN); lia|pose proof (Q _ v IN He); lia]. }
    assert (PP : pos rk g' w = rk w) by (apply pos_pinned; assumption).
    assert (PX : forall x, pos rk g2 x = pos rk g' x \/ (x = src /\ pos rk g2 x = rk w)).
    { intros x. subst g2. unfold pos, in_near_edges. cbn [connect_near g_near]. apply (pos_dset rk (g_near g') w src q x (rk x)). }
    assert (FP2 : from_pinned g2).
    { intros a b q' Hi. subst g2. cbn [connect_near g_near] in Hi.
      assert (Hk : In (a, b) (map fst (dset edge_eqb (w, src) q (g_near g')))) by (apply (in_map fst) in Hi; exact Hi).
      apply (dset_In_key _ edge_eqb_ok) in Hk as [Hk|Hk]; [injection Hk as -> ->; assumption|].
      apply in_map_iff in Hk as [[[a' b'] q2] [Q1 Q2]]. cbn [fst] in Q1. injection Q1 as -> ->. apply (FP a b q2 Q2). }
    constructor; auto.
    - apply (ranking_pos g2 r2 NO2 FP2 R2).
    - intros a b Eab. pose proof (IN a b Eab) as L. assert (Nab : a <> b) by (intros C; subst; lia).
      destruct (PX a) as [A|[A1 A2]], (PX b) as [B|[B1 B2]].
      + lia.
      + subst b. lia.
      + subst a. rewrite (ONE src b v NP Eab He) in *. lia.
      + congruence.
  Qed.

  Theorem near_match_inv : exists g2 r2, perform_near_match topo ratio g (ranking_for rk m l0) = Ok (g2, r2) /\ near_inv g2 r2.
  Proof.
    unfold perform_near_match. destruct (topo_near topo g W TO) as [l [T _]].
    { destruct g as [a b n d]. pose proof (gi_near _ _ GI) as N. cbn [g_near] in N. subst n. exact GI. }
    rewrite T. cbn [bind].
    assert (NI : near_inv g (ranking_for rk m l0)).
    { pose proof (gi_near _ _ GI) as N.
      assert (PZ : forall x, pos rk g x = rk x) by (intros x; unfold pos, in_near_edges; rewrite N; reflexivity).
      constructor.
      - split; [destruct g as [a b n d]; cbn in N |- *; subst n; reflexivity|]. rewrite N. intros u v q [].
      - intros u v q Hi. rewrite N in Hi. destruct Hi.
      - apply (base_placed g W rk m l0 GI NW RO rk m l0 RO).
      - intros x Hx. rewrite PZ. apply (by_vertex_get _ _ _ _ _ RO Hx).
      - intros u v E. rewrite !PZ. apply (ro_edge _ _ _ _ RO u v E). }
    assert (F : forall L g' r, near_inv g' r ->
      exists g2 r2, foldM (fun st v => foldM (near_edge_step topo ratio) (in_edges (fst st) v) st) L (g', r) = Ok (g2, r2) /\ near_inv g2 r2).
    { induction L as [|v L IH]; intros g' r N; [exists g', r; auto|]. cbn [foldM fst].
      assert (F1 : forall es g1 r1, (forall e, In e es -> edge g (fst (fst e)) (snd (fst e))) -> near_inv g1 r1 ->
        exists g2 r2, foldM (near_edge_step topo ratio) es (g1, r1) = Ok (g2, r2) /\ near_inv g2 r2).
      { induction es as [|[[a b] lb] es IHe]; intros g1 r1 He N1; [exists g1, r1; auto|]. cbn [foldM].
        destruct (near_edge_total g W rk m l0 GI NW RO topo ratio TO g1 r1 a b lb (ni_ok _ _ N1) (ni_placed _ _ N1) (He _ (or_introl eq_refl))) as [g2 [r2 [S1 _]]].
        rewrite S1. cbn [bind]. apply IHe; [intros e Hi; apply He; right; assumption|].
        apply (near_edge_inv g1 r1 a b lb g2 r2 N1 (He _ (or_introl eq_refl)) S1). }
      destruct (F1 (in_edges g' v) g' r) as [g2 [r2 [S1 S2]]]; auto.
      { intros [[a b] lb] He. unfold in_edges in He. apply filter_In in He as [He _]. cbn [fst snd]. destruct (ni_ok _ _ N) as [N' _]. rewrite <- N'.
        apply (in_map fst) in He. exact He. }
      rewrite S1. cbn [bind]. apply IH; assumption. }
    destruct (F (rev l) g (ranking_for rk m l0) NI) as [g2 [r2 [S1 S2]]]. rewrite S1. cbn [bind].
    destruct (near_ranking g W rk m l0 GI NW RO topo TO g2 (ni_ok _ _ S2)) as [r3 [R1 R2]]. rewrite R1. cbn [bind]. exists g2, r3. split; [reflexivity|].
    destruct S2 as [S2 S3 S4 S5 S6]. constructor; auto. apply (ranking_pos g2 r3 S2 S3 R1).
  Qed.
End Dynamics.

Section TwoWitnesses.
  Variables (cc : cclass) (topo : graph -> res (list vid)) (ratio : str -> str -> Q).
  Hypothesis TO : topo_ok topo.

  Lemma two_apart : forall g W rk m l0 p1 p2, graph_of g W -> rank_ok g rk m l0 -> In p1 W -> In p2 W -> (forall p, In p W -> p = p1 \/ p = p2) ->
    (forall src w, In src (vertices g) -> In w (vertices g) -> ~ pinned g rk src -> w <> src ->
      pinned g rk w \/ (forall f, inc g f -> f w < f src) \/ (forall f v, inc g f -> edge g src v -> f v <= f w)) /\
    (forall src u v, ~ pinned g rk src -> edge g src u -> edge g src v -> u = v).
  Proof.
    intros g W rk m l0 p1 p2 GI RO I1 I2 IW.
    assert (N1 : NoDup (chain p1)) by (apply (gi_simple _ _ GI); assumption).
    assert (N2 : NoDup (chain p2)) by (apply (gi_simple _ _ GI); assumption).
    assert (EG : forall u v, edge g u v <-> In (u, v) (pairs (chain p1)) \/ In (u, v) (pairs (chain p2))).
    { intros u v. rewrite (graph_edge_path g W u v GI). split.
      - intros [p [Hp H]]. destruct (IW p Hp) as [->| ->]; auto.
      - intros [H|H]; eauto. }
    assert (EG' : forall u v, edge g u v <-> In (u, v) (pairs (chain p2)) \/ In (u, v) (pairs (chain p1))) by (intros; rewrite EG; tauto).
    assert (SH : forall x, In x (chain p1) -> In x (chain p2) -> pinned g rk x).
    { apply (shared_pinned g W rk m l0 GI RO (chain p1) (chain p2) (map fst (snd p1)) (map fst (snd p2)) N1 N2 eq_refl eq_refl EG). }
    assert (VG : forall x, In x (vertices g) -> In x (chain p1) \/ In x (chain p2)).
    { intros x Hx. destruct (gi_cover _ _ GI x Hx) as [->|[->|[p [ts [H1 H2]]]]].
      - left. left. reflexivity.
      - left. unfold chain. right. apply in_or_app. right. left. reflexivity.
      - apply (in_map fst) in H2. cbn [fst] in H2. destruct (IW p H1) as [->| ->]; [left|right]; right; apply in_or_app; left; assumption. }
    split.
    - intros src w Hs Hw NP Nw.
      destruct (in_dec Nat.eq_dec src (chain p1)) as [S1|S1], (in_dec Nat.eq_dec src (chain p2)) as [S2|S2].
      + exfalso. apply NP. apply SH; assumption.
      + destruct (in_dec Nat.eq_dec w (chain p1)) as [W1|W1].
        * right. apply (apart_BB g (chain p2) (chain p1) (map fst (snd p2)) (map fst (snd p1)) N2 N1 eq_refl eq_refl EG' src w); assumption.
        * destruct (VG w Hw) as [C|W2]; [contradiction|].
          apply (apart_AB g W rk m l0 GI RO (chain p2) (chain p1) (map fst (snd p2)) (map fst (snd p1)) N2 N1 eq_refl eq_refl EG' src w); assumption.
      + destruct (in_dec Nat.eq_dec w (chain p2)) as [W2|W2].
        * right. apply (apart_BB g (chain p1) (chain p2) (map fst (snd p1)) (map fst (snd p2)) N1 N2 eq_refl eq_refl EG src w); assumption.
        * destruct (VG w Hw) as [W1|C]; [|contradiction].
          apply (apart_AB g W rk m l0 GI RO (chain p1) (chain p2) (map fst (snd p1)) (map fst (snd p2)) N1 N2 eq_refl eq_refl EG src w); assumption.
      + destruct (VG src Hs); contradiction.
    - intros src u v NP E1 E2. apply EG in E1, E2. destruct E1 as [E1|E1], E2 as [E2|E2].
      + apply (pairs_succ _ _ _ _ N1 E2 E1).
      + exfalso. apply NP. apply SH; [apply in_pairs_l in E1|apply in_pairs_l in E2]; assumption.
      + exfalso. apply NP. apply SH; [apply in_pairs_l in E2|apply in_pairs_l in E1]; assumption.
      + apply (pairs_succ _ _ _ _ N2 E2 E1).
  Qed.

  Theorem near_two_witnesses : forall c o t, length c <= 2 -> good_sigla c -> o_near o = true ->
    collate cc topo ratio c o = Ok (OTable t) ->
    Forall2 (fun w ro => r_header ro = w_sigil w /\ Forall2 (came_from (w_sigil w)) (w_toks w) (row_tokens ro)) c (t_rows t).
  Proof.
    intros c o t LC [ND NG] Hn H. destruct (collate_table_inv cc topo ratio c o t H) as [g2 [r2 [H1 H2]]].
    unfold collate_graph in H1. apply bind_ok in H1 as [[ti g0] [A H1]]. apply bind_ok in H1 as [r1 [R H1]].
    destruct (o_astar o); [discriminate|]. apply bind_ok in H1 as [[g3 r3] [NM H1]]. rewrite Hn in NM. destruct (o_segmentation o); [discriminate|]. injection H1 as -> ->.
    destruct (aligner_spec _ _ _ _ _ _ TO ND NG A) as [_ [_ [st' [W [E [AL [NW CA]]]]]]].
    pose proof (al_graph _ _ _ _ _ AL) as GI. rewrite E in GI.
    destruct (ranking_spec topo g0 W TO GI) as [rk [m [l [_ [R1 RO]]]]]. rewrite R1 in R. injection R as <-.
    assert (LW : length W = length c) by (clear - CA; induction CA; cbn [length]; congruence).
    assert (TW : exists p1 p2, In p1 W /\ In p2 W /\ forall p, In p W -> p = p1 \/ p = p2).
    { destruct W as [|p1 [|p2 [|]]]; [congruence| | |cbn in LW; lia].
      - exists p1, p1. split; [left; reflexivity|]. split; [left; reflexivity|]. intros p [<-|[]]. auto.
      - exists p1, p2. split; [left; reflexivity|]. split; [right; left; reflexivity|]. intros p [<-|[<-|[]]]; auto. }
    destruct TW as [p1 [p2 [I1 [I2 IW]]]]. destruct (two_apart g0 W rk m l p1 p2 GI RO I1 I2 IW) as [AP ONE].
    destruct (near_match_inv g0 W rk m l GI NW RO topo ratio TO AP ONE) as [g3 [r3 [N1 N2]]]. rewrite NM in N1. injection N1 as <- <-.
    destruct N2 as [[N2 _] N3 N4 N5 N6].
    assert (HP : forall p, In p W -> StronglySorted (fun a b : vid * list token => pos rk g2 (fst a) < pos rk g2 (fst b)) (snd p)).
    { intros p Hp. assert (G : forall l a b, snd p = a ++ l ++ b -> StronglySorted (fun a b : vid * list token => pos rk g2 (fst a) < pos rk g2 (fst b)) l).
      { induction l0 as [|x l' IH]; intros a b Eq; constructor.
        - apply (IH (a ++ [x]) b). rewrite <- app_assoc. exact Eq.
        - apply Forall_forall. intros y Hy. apply in_split in Hy as [d1 [d2 ->]].
          apply (inc_list g0 (chain p) (fun u v Hu => proj2 (graph_edge_path g0 W u v GI) (ex_intro _ p (conj Hp Hu))) (pos rk g2) (v_start :: map fst a) (fst x) (map fst d1) (fst y) (map fst (d2 ++ b) ++ [v_end]) N6).
          unfold chain. rewrite Eq, !map_app. cbn [map app]. rewrite !map_app. cbn [map app]. repeat (rewrite <- !app_assoc; cbn [app]). reflexivity. }
      apply (G (snd p) [] []). rewrite app_nil_r. reflexivity. }
    assert (HK : StronglySorted lt (map fst (by_rank r2))) by (rewrite (pd_keys _ _ _ _ N4); apply seq_sorted).
    assert (HD : forall k vs, In (k, vs) (by_rank r2) -> dget Nat.eqb k (by_rank r2) = Some vs).
    { intros k vs I. apply (In_dget _ nat_eqb_ok); [|assumption]. rewrite (pd_keys _ _ _ _ N4). apply seq_NoDup. }
    assert (HV : forall k vs, In (k, vs) (by_rank r2) -> NoDup vs /\ forall v, In v vs <-> In v (vertices g0) /\ pos rk g2 v = k).
    { intros k vs I. destruct (pd_lists _ _ _ _ N4 k vs (HD k vs I)) as [B1 B2]. split; [assumption|]. intros v. split.
      - intros Hv. pose proof (B2 v Hv) as D. destruct (pd_at _ _ _ _ N4 v k D) as [Hg _]. split; [assumption|]. rewrite (N5 v Hg) in D. congruence.
      - intros [Hg <-]. destruct (pd_at _ _ _ _ N4 v _ (N5 v Hg)) as [_ [vs' [D1 D2]]]. rewrite (HD _ _ I) in D1. congruence. }
    assert (HA : forall v, In v (vertices g0) -> exists vs, In (pos rk g2 v, vs) (by_rank r2)).
    { intros v Hv. destruct (pd_at _ _ _ _ N4 v _ (N5 v Hv)) as [_ [vs [D _]]]. exists vs. apply (dget_In _ nat_eqb_ok). assumption. }
    unfold construct_table in H2. apply bind_ok in H2 as [cols [C H2]]. injection H2 as <-. cbn [t_rows].
    change (construct_columns g2 (length (map w_sigil c)) (by_rank r2)) with (construct_columns (without_near g2) (length (map w_sigil c)) (by_rank r2)) in C.
    rewrite N2, (columns_spec g0 W (pos rk g2) (by_rank r2) GI HP HV) in C. injection C as <-.
    set (cols := map (mkcol W (length (map w_sigil c))) _) in *.
    assert (ROW : forall p, In p W -> row_tokens (construct_row cols (fst p)) = flat_map snd (snd p)).
    { intros p Hp. apply (row_lossless g0 W (pos rk g2) (by_rank r2) GI HP HK HV HA). assumption. }
    assert (G : forall L P, Forall2 carries L P -> (forall p, In p P -> In p W) ->
      Forall2 (fun w ro => r_header ro = w_sigil w /\ Forall2 (came_from (w_sigil w)) (w_toks w) (row_tokens ro)) L (map (construct_row cols) (map w_sigil L))).
    { intros L P FF. induction FF as [|w p L P [C1 C2] FF IH]; intros I; cbn [map]; constructor.
      - split; [reflexivity|]. rewrite <- C1, (ROW p (I p (or_introl eq_refl))), C1. exact C2.
      - apply IH. intros q Hq. apply I. right. assumption. }
    apply (G c W CA). auto.
  Qed.
End TwoWitnesses.
