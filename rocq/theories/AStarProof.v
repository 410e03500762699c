(** A* search on the edit graph: it ends with a path of minimal cost (C43, C49). *)
From Verif Require Import Py Lib AStarModel AStarSpec.
From Coq Require Import Permutation Sorting.Sorted.
Open Scope list_scope.

Lemma pnode_eqb_eq : forall p q, pnode_eqb p q = true <-> p = q.
Proof.
  intros [a b] [c d]. unfold pnode_eqb. cbn [fst snd]. rewrite andb_true_iff, !Nat.eqb_eq. split; [intros [-> ->]; reflexivity|]. intros E. injection E as -> ->. auto.
Qed.
Lemma pmem_In : forall p l, pmem p l = true <-> In p l.
Proof.
  intros. unfold pmem. rewrite existsb_exists. split.
  - intros [q [H E]]. apply pnode_eqb_eq in E. subst. assumption.
  - intros H. exists p. split; [assumption|]. apply pnode_eqb_eq. reflexivity.
Qed.
Lemma pmem_false : forall p l, pmem p l = false <-> ~ In p l.
Proof. intros. rewrite <- pmem_In. destruct (pmem p l); split; intros H; congruence. Qed.
Lemma pnode_dec : forall p q : pnode, {p = q} + {p <> q}.
Proof. decide equality; apply Nat.eq_dec. Qed.
Lemma aupd_same : forall t p n, aupd t p n p = n.
Proof. intros. unfold aupd. rewrite (proj2 (pnode_eqb_eq p p) eq_refl). reflexivity. Qed.
Lemma aupd_other : forall t p n q, q <> p -> aupd t p n q = t q.
Proof. intros. unfold aupd. destruct (pnode_eqb q p) eqn:E; [apply pnode_eqb_eq in E; contradiction|reflexivity]. Qed.

(** ** The sort *)
Lemma insert_perm : forall key p l, Permutation (insert_by key p l) (p :: l).
Proof.
  intros key p l. induction l as [|q l IH]; cbn [insert_by]; [reflexivity|]. destruct (_ <=? _)%Z; [reflexivity|]. rewrite IH. apply perm_swap.
Qed.
Lemma sort_perm : forall key l, Permutation (sort_by key l) l.
Proof. intros key l. induction l as [|p l IH]; [reflexivity|]. cbn [sort_by fold_right]. rewrite insert_perm. constructor. exact IH. Qed.
Lemma insert_sorted : forall key p l, StronglySorted (fun a b => (key a <= key b)%Z) l -> StronglySorted (fun a b => (key a <= key b)%Z) (insert_by key p l).
Proof.
  intros key p l H. induction H as [|q l H IH F]; cbn [insert_by]; [repeat constructor|]. destruct (key p <=? key q)%Z eqn:E.
  - apply Z.leb_le in E. constructor; [constructor; assumption|]. constructor; [assumption|]. apply Forall_impl with (2 := F). intros a Ha. lia.
  - apply Z.leb_gt in E. constructor; [assumption|]. apply Forall_forall. intros a Ha. apply (Permutation_in _ (insert_perm key p l)) in Ha as [<-|Ha]; [lia|]. rewrite Forall_forall in F. apply F. assumption.
Qed.
Lemma sort_sorted : forall key l, StronglySorted (fun a b => (key a <= key b)%Z) (sort_by key l).
Proof. intros key l. induction l as [|p l IH]; [constructor|]. cbn [sort_by fold_right]. apply insert_sorted. exact IH. Qed.

Section Search.
  Variable T : Type.
  Variable mf : T -> T -> Z.
  Variable wa wb : list T.
  Notation step := (edit_step T mf wa wb).
  Notation path := (edit_path T mf wa wb).
  Notation la := (length wa).
  Notation lb := (length wb).
  Notation hh := (heuristic T wb).

  Definition inside (p : pnode) : Prop := fst p <= lb /\ snd p <= la.
  Lemma step_inside : forall p q c, step p q c -> inside p /\ inside q.
  Proof.
    intros p q c H. inversion H as [? ? H1 H2|? ? H1 H2|? ? a b H1 H2]; subst; unfold inside; cbn [fst snd]; [lia|lia|].
    assert (x < la) by (apply nth_error_Some; congruence). assert (y < lb) by (apply nth_error_Some; congruence). lia.
  Qed.
  Lemma step_nonneg : forall p q c, step p q c -> (0 <= c)%Z.
  Proof. intros p q c H. inversion H; subst; [lia|lia|]. unfold match_cost. destruct (_ =? 0)%Z; [lia|]. destruct (_ =? 1)%Z; lia. Qed.
  Lemma step_det : forall p q c c', step p q c -> step p q c' -> c = c'.
  Proof. intros p q c c' H H'. inversion H; subst; inversion H'; subst; try lia; congruence. Qed.
  Lemma step_up : forall p q c, step p q c -> fst p + snd p < fst q + snd q.
  Proof. intros p q c H. inversion H; subst; cbn [fst snd]; lia. Qed.
  Lemma consistent : forall p q c, step p q c -> (hh p <= c + hh q)%Z.
  Proof.
    intros p q c H. pose proof (step_nonneg _ _ _ H). unfold heuristic. inversion H; subst; cbn [fst snd] in *; lia.
  Qed.
  Lemma path_consistent : forall p l q c, path p l q c -> (hh p <= c + hh q)%Z.
  Proof. intros p l q c H. induction H as [p|p q l r c c' S P IH]; [lia|]. pose proof (consistent _ _ _ S). lia. Qed.
  Lemma path_nonneg : forall p l q c, path p l q c -> (0 <= c)%Z.
  Proof. intros p l q c H. induction H as [p|p q l r c c' S P IH]; [lia|]. pose proof (step_nonneg _ _ _ S). lia. Qed.
  Lemma path_snoc : forall p l q c r c', path p l q c -> step q r c' -> path p (l ++ [r]) r (c + c').
  Proof.
    intros p l q c r c' H S. induction H as [p|p q l s c0 c1 S0 P IH]; cbn [app].
    - replace (0 + c')%Z with (c' + 0)%Z by lia. econstructor; [eassumption|constructor].
    - replace (c0 + c1 + c')%Z with (c0 + (c1 + c'))%Z by lia. econstructor; [eassumption|]. apply IH. assumption.
  Qed.

  Lemma children_step : forall p q, inside p -> (In q (create_childnodes T wa wb p) <-> exists c, step p q c).
  Proof.
    intros [y x] q [I1 I2]. cbn [fst snd] in *. unfold create_childnodes. rewrite !in_app_iff. split.
    - intros [H|[H|H]].
      + destruct (y <? lb) eqn:E; [|contradiction]. apply Nat.ltb_lt in E. destruct H as [<-|[]]. rewrite Nat.add_1_r. eexists. constructor; lia.
      + destruct (x <? la) eqn:E; [|contradiction]. apply Nat.ltb_lt in E. destruct H as [<-|[]]. rewrite Nat.add_1_r. eexists. constructor; lia.
      + destruct ((y <? lb) && (x <? la)) eqn:E; [|contradiction]. apply andb_true_iff in E as [E1 E2]. apply Nat.ltb_lt in E1, E2. destruct H as [<-|[]]. rewrite !Nat.add_1_r.
        destruct (nth_error wa x) as [a|] eqn:Ha; [|apply nth_error_None in Ha; lia]. destruct (nth_error wb y) as [b|] eqn:Hb; [|apply nth_error_None in Hb; lia]. eexists. econstructor; eassumption.
    - intros [c H]. inversion H as [? ? H1 H2|? ? H1 H2|? ? a b H1 H2]; subst.
      + left. replace (y <? lb) with true by (symmetry; apply Nat.ltb_lt; lia). left. rewrite Nat.add_1_r. reflexivity.
      + right. left. replace (x <? la) with true by (symmetry; apply Nat.ltb_lt; lia). left. rewrite Nat.add_1_r. reflexivity.
      + right. right. assert (x < la) by (apply nth_error_Some; congruence). assert (y < lb) by (apply nth_error_Some; congruence).
        replace (y <? lb) with true by (symmetry; apply Nat.ltb_lt; lia). replace (x <? la) with true by (symmetry; apply Nat.ltb_lt; lia). left. rewrite !Nat.add_1_r. reflexivity.
  Qed.

  Lemma before_ok : forall {A} (l : list A) i, l <> [] -> i <= length l -> exists a, before l i = Ok a.
  Proof.
    intros A l [|i] N H; cbn [before].
    - destruct l; [contradiction|]. eexists. reflexivity.
    - destruct (nth_error l i) as [a|] eqn:E; [exists a; reflexivity|]. apply nth_error_None in E. lia.
  Qed.

  Lemma move_ok : forall t p q c, wa <> [] -> wb <> [] -> step p q c ->
    exists n, move_cost T mf wa wb t p q = Ok (c, n) /\ an_parent n = an_parent (t q) /\ an_h n = an_h (t q).
  Proof.
    intros t p q c Na Nb S. destruct (step_inside _ _ _ S) as [_ [I1 I2]]. destruct q as [y x]. cbn [fst snd] in *.
    destruct (before_ok wa x Na I2) as [a Ha]. destruct (before_ok wb y Nb I1) as [b Hb]. unfold move_cost. rewrite Ha. cbn [bind]. rewrite Hb. cbn [bind].
    inversion S as [? ? H1 H2|? ? H1 H2|? ? a' b' H1 H2]; subst; cbn [fst snd].
    - replace (Z.of_nat x - 1 =? Z.of_nat x)%Z with false by (symmetry; apply Z.eqb_neq; lia). cbn [andb]. unfold score_cell. cbn [Nat.eqb]. rewrite orb_false_r.
      destruct (x =? 0); eexists; (split; [f_equal; f_equal; cbn [an_g]; lia|split; reflexivity]).
    - replace (Z.of_nat y - 1 =? Z.of_nat y)%Z with false by (symmetry; apply Z.eqb_neq; lia). rewrite andb_false_r. unfold score_cell. cbn [Nat.eqb orb].
      destruct (y =? 0); eexists; (split; [f_equal; f_equal; cbn [an_g]; lia|split; reflexivity]).
    - replace (Z.of_nat (Datatypes.S x0) - 1 =? Z.of_nat x0)%Z with true by (symmetry; apply Z.eqb_eq; lia). replace (Z.of_nat (Datatypes.S y0) - 1 =? Z.of_nat y0)%Z with true by (symmetry; apply Z.eqb_eq; lia).
      cbn [andb]. unfold score_cell. cbn [Nat.eqb orb]. cbn [before] in Ha, Hb. rewrite H1 in Ha. rewrite H2 in Hb. injection Ha as <-. injection Hb as <-. unfold match_cost.
      destruct (mf a' b' =? 0)%Z; [|destruct (mf a' b' =? 1)%Z]; eexists; (split; [f_equal; f_equal; cbn [an_g]; lia|split; reflexivity]).
  Qed.

  (** ** Invariants *)
  Notation g t p := (an_g (t p)).
  Definition good (t : atable) (visited : list pnode) (p : pnode) : Prop :=
    (p = start_node /\ an_parent (t p) = None /\ g t p = 0%Z /\ an_h (t p) = hh p) \/
    (exists u c, an_parent (t p) = Some u /\ In u visited /\ step u p c /\ g t p = (g t u + c)%Z /\ an_h (t p) = hh p).

  Record core (t : atable) (heap visited : list pnode) : Prop := {
    co_heap : NoDup heap;
    co_visited : NoDup visited;
    co_disjoint : forall p, In p heap -> ~ In p visited;
    co_inside : forall p, In p heap \/ In p visited -> inside p;
    co_start : In start_node heap \/ In start_node visited;
    co_good : forall p, In p heap \/ In p visited -> good t visited p;
    co_opt : forall p l c, In p visited -> path start_node l p c -> (g t p <= c)%Z;
    co_end : ~ In (end_node T wa wb) visited }.

  Definition closed (t : atable) (heap visited : list pnode) (skip : pnode -> pnode -> Prop) : Prop :=
    forall u q c, In u visited -> step u q c -> skip u q \/ In q visited \/ (In q heap /\ (g t q <= g t u + c)%Z).

  Lemma good_walk : forall t heap visited, core t heap visited -> forall n p, fst p + snd p < n -> In p heap \/ In p visited -> exists l, path start_node l p (g t p).
  Proof.
    intros t heap visited C. induction n as [|n IH]; intros p Hn Hp; [lia|]. destruct (co_good _ _ _ C p Hp) as [[-> [_ [G _]]]|[u [c [_ [Hu [S [G _]]]]]]].
    - exists []. rewrite G. constructor.
    - pose proof (step_up _ _ _ S). destruct (IH u) as [l L]; [lia|auto|]. exists (l ++ [p]). rewrite G. eapply path_snoc; eassumption.
  Qed.

  (** One child. *)
  Lemma visit_ok : forall visited node t heap child c rest, wa <> [] -> wb <> [] -> In node visited -> step node child c -> core t heap visited ->
    closed t heap visited (fun u q => u = node /\ In q (child :: rest)) ->
    exists t' heap', visit_child T mf wa wb visited node (t, heap) child = Ok (t', heap') /\ core t' heap' visited /\
      closed t' heap' visited (fun u q => u = node /\ In q rest).
  Proof.
    intros visited node t heap child c rest Na Nb Hn S C CL. unfold visit_child. destruct (pmem child visited) eqn:V.
    - apply pmem_In in V. exists t, heap. split; [reflexivity|]. split; [assumption|]. intros u q c' Hu Hs. destruct (CL u q c' Hu Hs) as [[-> [<-|Q]]|Q]; auto.
    - apply pmem_false in V. destruct (move_ok t node child c Na Nb S) as [n [M [N1 N2]]]. rewrite M. cbn [bind].
      assert (NE : forall u, In u visited -> u <> child) by (intros u Hu ->; contradiction).
      assert (NS : child <> start_node) by (intros ->; pose proof (step_up _ _ _ S); cbn in *; lia).
      destruct (negb (pmem child heap) || (g t node + c <? g t child)%Z) eqn:D.
      + set (n' := {| an_g := (g t node + c)%Z; an_h := hh child; an_parent := Some node; an_match := an_match n; an_segments := an_segments n |}).
        set (heap' := if negb (pmem child heap) then heap ++ [child] else heap).
        exists (aupd t child n'), heap'. split; [reflexivity|].
        assert (HP : forall p, In p heap' <-> p = child \/ In p heap).
        { intros p. unfold heap'. destruct (pmem child heap) eqn:B; cbn [negb].
          - apply pmem_In in B. split; [auto|]. intros [->|Q]; assumption.
          - rewrite in_app_iff. cbn [In]. split; [intros [Q|[<-|[]]]; auto|intros [->|Q]; auto]. }
        assert (GU : forall u, In u visited -> aupd t child n' u = t u) by (intros u Hu; apply aupd_other; apply NE; assumption).
        split; [constructor|].
        * unfold heap'. destruct (pmem child heap) eqn:B; cbn [negb]; [apply (co_heap _ _ _ C)|]. apply pmem_false in B.
          apply (Permutation_NoDup (Permutation_cons_append heap child)). constructor; [assumption|apply (co_heap _ _ _ C)].
        * apply (co_visited _ _ _ C).
        * intros p Hp. apply HP in Hp as [->|Hp]; [assumption|apply (co_disjoint _ _ _ C); assumption].
        * intros p [Hp|Hp]; [apply HP in Hp as [->|Hp]; [apply (step_inside _ _ _ S)|]|]; apply (co_inside _ _ _ C); auto.
        * destruct (co_start _ _ _ C) as [Q|Q]; [left; apply HP; auto|right; assumption].
        * intros p Hp. destruct (pnode_dec p child) as [->|Np].
          -- right. exists node, c. rewrite aupd_same. split; [reflexivity|]. split; [assumption|]. split; [assumption|]. rewrite (GU node Hn). split; reflexivity.
          -- assert (Hp' : In p heap \/ In p visited) by (destruct Hp as [Hp|Hp]; [apply HP in Hp as [->|Hp]; [contradiction|auto]|auto]).
             unfold good. rewrite (aupd_other t child n' p Np). destruct (co_good _ _ _ C p Hp') as [Q|[u [c' [Q1 [Q2 Q3]]]]]; [left; exact Q|]. right. exists u, c'. rewrite (GU u Q2). auto.
        * intros p l c' Hp Hl. rewrite (GU p Hp). apply (co_opt _ _ _ C p l c' Hp Hl).
        * apply (co_end _ _ _ C).
        * intros u q c' Hu Hs. rewrite (GU u Hu). destruct (pnode_dec q child) as [->|Nq].
          -- rewrite aupd_same. right. right. split; [apply HP; auto|]. unfold n'. cbn [an_g]. destruct (pnode_dec u node) as [->|Nu]; [rewrite (step_det _ _ _ _ Hs S); lia|].
             destruct (CL u child c' Hu Hs) as [[Q _]|[Q|[Q1 Q2]]]; [contradiction|contradiction|]. apply pmem_In in Q1. rewrite Q1 in D. cbn [negb orb] in D. apply Z.ltb_lt in D. lia.
          -- rewrite (aupd_other t child n' q Nq). destruct (CL u q c' Hu Hs) as [[-> [Q|Q]]|[Q|[Q1 Q2]]]; [symmetry in Q; contradiction|auto|auto|]. right. right. split; [apply HP; auto|assumption].
      + apply orb_false_iff in D as [D1 D2]. apply negb_false_iff in D1. apply Z.ltb_ge in D2. apply pmem_In in D1.
        set (n' := {| an_g := g t child; an_h := an_h n; an_parent := an_parent n; an_match := an_match n; an_segments := an_segments n |}).
        exists (aupd t child n'), heap. split; [reflexivity|].
        assert (SG : forall p, g (aupd t child n') p = g t p) by (intros p; destruct (pnode_dec p child) as [->|Np]; [rewrite aupd_same; reflexivity|rewrite aupd_other by assumption; reflexivity]).
        assert (SP : forall p, an_parent (aupd t child n' p) = an_parent (t p)) by (intros p; destruct (pnode_dec p child) as [->|Np]; [rewrite aupd_same; exact N1|rewrite aupd_other by assumption; reflexivity]).
        assert (SH : forall p, an_h (aupd t child n' p) = an_h (t p)) by (intros p; destruct (pnode_dec p child) as [->|Np]; [rewrite aupd_same; exact N2|rewrite aupd_other by assumption; reflexivity]).
        split.
        * destruct C as [C1 C2 C3 C4 C5 C6 C7 C8]. constructor; auto.
          -- intros p Hp. destruct (C6 p Hp) as [[Q1 [Q2 [Q3 Q4]]]|[u [c' [Q1 [Q2 [Q3 [Q4 Q5]]]]]]]; [left|right; exists u, c']; rewrite ?SG, SP, SH; auto.
          -- intros p l c' Hp Hl. rewrite SG. eapply C7; eassumption.
        * intros u q c' Hu Hs. rewrite !SG. destruct (CL u q c' Hu Hs) as [[-> [<-|Q]]|Q]; [|auto|auto]. right. right. split; [assumption|]. rewrite (step_det _ _ _ _ Hs S). lia.
  Qed.

  Lemma children_ok : forall visited node cs t heap, wa <> [] -> wb <> [] -> In node visited -> (forall q, In q cs -> exists c, step node q c) -> core t heap visited ->
    closed t heap visited (fun u q => u = node /\ In q cs) ->
    exists t' heap', foldM (visit_child T mf wa wb visited node) cs (t, heap) = Ok (t', heap') /\ core t' heap' visited /\ closed t' heap' visited (fun _ _ => False).
  Proof.
    intros visited node cs. induction cs as [|q cs IH]; intros t heap Na Nb Hn HS C CL; cbn [foldM].
    - exists t, heap. split; [reflexivity|]. split; [assumption|]. intros u q c Hu Hs. destruct (CL u q c Hu Hs) as [[_ []]|Q]; auto.
    - destruct (HS q (or_introl eq_refl)) as [c S]. destruct (visit_ok visited node t heap q c cs Na Nb Hn S C CL) as [t' [heap' [E [C' CL']]]]. rewrite E. cbn [bind].
      apply IH; auto. intros q' Hq'. apply HS. right. assumption.
  Qed.

  (** The node chosen has its final cost. *)
  Lemma chosen_opt : forall t heap visited n, core t heap visited -> closed t heap visited (fun _ _ => False) -> In n heap ->
    (forall m, In m heap -> (g t n + an_h (t n) <= g t m + an_h (t m))%Z) -> (In start_node visited \/ n = start_node) ->
    forall l c, path start_node l n c -> (g t n <= c)%Z.
  Proof.
    intros t heap visited n C CL Hn MIN ST l c P.
    assert (HH : forall m, In m heap -> an_h (t m) = hh m).
    { intros m Hm. destruct (co_good _ _ _ C m (or_introl Hm)) as [[-> [_ [_ Q]]]|[u [c' [_ [_ [_ [_ Q]]]]]]]; exact Q. }
    assert (F : forall p l c, path p l n c -> In p visited -> exists m, In m heap /\ (g t m + hh m <= g t p + c + hh n)%Z).
    { clear l c P ST. intros p l c P Hp. assert (NV : ~ In n visited) by (apply (co_disjoint _ _ _ C); assumption).
      remember n as n0 eqn:EN in P. induction P as [p|p q l r c c' S P IH]; [subst; contradiction|]. subst r.
      destruct (CL p q c Hp S) as [[]|[Q|[Q1 Q2]]].
      - destruct (IH eq_refl Q) as [m [M1 M2]]. exists m. split; [assumption|].
        destruct (good_walk t heap visited C (Datatypes.S (fst p + snd p)) p ltac:(lia) (or_intror Hp)) as [w W].
        pose proof (co_opt _ _ _ C q _ _ Q (path_snoc _ _ _ _ _ _ W S)). lia.
      - exists q. split; [assumption|]. pose proof (path_consistent _ _ _ _ P). lia. }
    destruct ST as [ST|ST].
    - destruct (F _ _ _ P ST) as [m [M1 M2]]. specialize (MIN m M1). rewrite !HH in MIN by assumption.
      destruct (co_good _ _ _ C start_node (or_intror ST)) as [[_ [_ [G _]]]|[u [c' [_ [_ [S _]]]]]]; [|pose proof (step_up _ _ _ S); cbn in *; lia]. lia.
    - subst n. destruct (co_good _ _ _ C start_node (or_introl Hn)) as [[_ [_ [G _]]]|[u [c' [_ [_ [S _]]]]]]; [|pose proof (step_up _ _ _ S); cbn in *; lia].
      rewrite G. eapply path_nonneg; eassumption.
  Qed.

  Lemma visited_small : forall l, NoDup l -> (forall p, In p l -> inside p) -> length l <= Datatypes.S la * Datatypes.S lb.
  Proof.
    intros l N I. pose proof (NoDup_incl_length N (l' := list_prod (seq 0 (Datatypes.S lb)) (seq 0 (Datatypes.S la)))) as Q. rewrite prod_length, !seq_length in Q.
    rewrite Nat.mul_comm. apply Q. intros [y x] Hp. destruct (I _ Hp) as [I1 I2]. cbn [fst snd] in *. apply in_prod; apply in_seq; lia.
  Qed.

  Lemma all_visited : forall t visited, core t [] visited -> closed t [] visited (fun _ _ => False) -> forall y x, y <= lb -> x <= la -> In (y, x) visited.
  Proof.
    intros t visited C CL y x Hy Hx. induction y as [|y IHy].
    - induction x as [|x IHx]; [destruct (co_start _ _ _ C) as [[]|Q]; exact Q|].
      assert (V : In (0, x) visited) by (apply IHx; lia). destruct (CL (0, x) (0, Datatypes.S x) 2%Z V) as [[]|[Q|[[] _]]]; [|exact Q]. constructor; lia.
    - assert (V : In (y, x) visited) by (apply IHy; lia). destruct (CL (y, x) (Datatypes.S y, x) 2%Z V) as [[]|[Q|[[] _]]]; [|exact Q]. constructor; lia.
  Qed.

  (** Every node of the path has the node before it as parent. *)
  Fixpoint linked (t : atable) (p : pnode) (l : list pnode) : Prop :=
    match l with [] => True | q :: l' => an_parent (t q) = Some p /\ linked t q l' end.

  Lemma reconstruct_ok : forall t heap visited, core t heap visited -> forall n p acc fuel, fst p + snd p < n -> fst p + snd p < fuel -> In p heap \/ In p visited ->
    forall r c, path p acc r c -> linked t p acc -> exists l, reconstruct fuel t p acc = Ok l /\ path start_node l r (g t p + c) /\ linked t start_node l.
  Proof.
    intros t heap visited C. induction n as [|n IH]; intros p acc fuel Hn Hf Hp r c P K; [lia|]. destruct fuel as [|fuel]; [lia|]. cbn [reconstruct].
    destruct (co_good _ _ _ C p Hp) as [[-> [Q [G _]]]|[u [c' [Q [Hu [S [G _]]]]]]]; rewrite Q.
    - exists acc. split; [reflexivity|]. rewrite G. split; [exact P|exact K].
    - pose proof (step_up _ _ _ S). destruct (IH u (p :: acc) fuel) with (r := r) (c := (c' + c)%Z) as [l [L1 [L2 L3]]]; [lia|lia|auto|econstructor; eassumption|split; assumption|].
      exists l. split; [assumption|]. split; [|assumption]. rewrite G. replace (g t u + c' + c)%Z with (g t u + (c' + c))%Z by lia. assumption.
  Qed.

  Theorem loop_spec : wa <> [] -> wb <> [] -> forall fuel t heap visited, core t heap visited -> closed t heap visited (fun _ _ => False) ->
    (In start_node visited \/ heap = [start_node]) -> Datatypes.S la * Datatypes.S lb < fuel + length visited ->
    exists l t', search_loop T mf wa wb fuel t heap visited = Ok (Some l, t') /\ path start_node l (end_node T wa wb) (g t' (end_node T wa wb)) /\
      (forall l' c, path start_node l' (end_node T wa wb) c -> (g t' (end_node T wa wb) <= c)%Z) /\ linked t' start_node l.
  Proof.
    intros Na Nb. induction fuel as [|fuel IH]; intros t heap visited C CL ST F.
    - exfalso. pose proof (visited_small visited (co_visited _ _ _ C)) as V. assert (length visited <= Datatypes.S la * Datatypes.S lb) by (apply V; intros; apply (co_inside _ _ _ C); auto). lia.
    - destruct heap as [|p0 heap0] eqn:EH.
      + exfalso. apply (co_end _ _ _ C). apply (all_visited t visited C CL); lia.
      + cbn [search_loop]. rewrite <- EH in *. clear p0 heap0 EH. set (key := fun p => (g t p + an_h (t p))%Z).
        pose proof (sort_perm key heap) as SP. pose proof (sort_sorted key heap) as SS. destruct (sort_by key heap) as [|node heap'] eqn:ES.
        * apply Permutation_nil in SP. subst heap. exfalso. apply (co_end _ _ _ C). apply (all_visited t visited C CL); lia.
        * assert (Hn : In node heap) by (apply (Permutation_in _ SP); left; reflexivity).
          assert (MIN : forall m, In m heap -> (key node <= key m)%Z).
          { intros m Hm. apply (Permutation_in _ (Permutation_sym SP)) in Hm as [<-|Hm]; [lia|]. inversion SS as [|? ? _ Q]; subst. rewrite Forall_forall in Q. apply Q. assumption. }
          assert (OPT : forall l c, path start_node l node c -> (g t node <= c)%Z).
          { eapply chosen_opt; try eassumption. destruct ST as [ST|ST]; [auto|]. right. rewrite ST in Hn. destruct Hn as [<-|[]]. reflexivity. }
          destruct (is_end T wa wb node) eqn:EE.
          -- assert (EN : node = end_node T wa wb).
             { unfold is_end in EE. apply andb_true_iff in EE as [E1 E2]. apply Nat.eqb_eq in E1, E2. destruct node. cbn in *. subst. reflexivity. }
             rewrite EN in *. destruct (reconstruct_ok t heap visited C (Datatypes.S (lb + la)) (end_node T wa wb) [] (Datatypes.S (la + lb))) with (r := end_node T wa wb) (c := 0%Z) as [l [L1 [L2 L3]]]; [cbn; lia|cbn; lia|auto|constructor|exact I|].
             rewrite L1. cbn [bind]. exists l, t. split; [reflexivity|]. rewrite Z.add_0_r in L2. split; [assumption|]. split; assumption.
          -- assert (HN : node <> end_node T wa wb).
             { intros ->. unfold is_end, end_node in EE. cbn [fst snd] in EE. rewrite !Nat.eqb_refl in EE. discriminate. }
             assert (IN : inside node) by (apply (co_inside _ _ _ C); auto).
             assert (NV : ~ In node visited) by (apply (co_disjoint _ _ _ C); assumption).
             pose proof (Permutation_NoDup (Permutation_sym SP) (co_heap _ _ _ C)) as ND. apply NoDup_cons_iff in ND as [ND1 ND2].
             assert (HI : forall p, In p heap <-> p = node \/ In p heap').
             { intros p. split; intros Q; [apply (Permutation_in _ (Permutation_sym SP)) in Q as [<-|Q]; auto|]. apply (Permutation_in _ SP). destruct Q as [->|Q]; [left; reflexivity|right; assumption]. }
             assert (C' : core t heap' (node :: visited)).
             { constructor.
               - assumption.
               - constructor; [assumption|apply (co_visited _ _ _ C)].
               - intros p Hp [<-|Q]; [contradiction|]. revert Q. apply (co_disjoint _ _ _ C). apply HI. auto.
               - intros p [Q|[<-|Q]]; apply (co_inside _ _ _ C); [left; apply HI; auto|left; apply HI; auto|auto].
               - destruct (co_start _ _ _ C) as [Q|Q]; [apply HI in Q as [->|Q]; [right; left; reflexivity|auto]|right; right; assumption].
               - intros p Hp. assert (Hp' : In p heap \/ In p visited) by (destruct Hp as [Q|[<-|Q]]; [left; apply HI; auto|left; assumption|auto]).
                 destruct (co_good _ _ _ C p Hp') as [Q|[u [c [Q1 [Q2 Q3]]]]]; [left; exact Q|]. right. exists u, c. split; [assumption|]. split; [right; assumption|exact Q3].
               - intros p l c [<-|Q] Hl; [eapply OPT; eassumption|eapply (co_opt _ _ _ C); eassumption].
               - intros [Q|Q]; [contradiction|apply (co_end _ _ _ C); assumption]. }
             assert (CL' : closed t heap' (node :: visited) (fun u q => u = node /\ In q (create_childnodes T wa wb node))).
             { intros u q c [<-|Hu] Hs.
               - left. split; [reflexivity|]. apply children_step; [assumption|]. exists c. assumption.
               - destruct (CL u q c Hu Hs) as [[]|[Q|[Q1 Q2]]]; [right; left; right; assumption|]. right. apply HI in Q1 as [->|Q1]; [left; left; reflexivity|right; auto]. }
             destruct (children_ok (node :: visited) node (create_childnodes T wa wb node) t heap' Na Nb (or_introl eq_refl)) as [t' [heap'' [E [C'' CL'']]]]; [intros q Hq; apply children_step; assumption|assumption|assumption|].
             rewrite E. cbn [bind]. destruct heap as [|p0 heap0]; [contradiction|]. apply IH; [assumption|assumption| |cbn [length] in *; lia].
             left. destruct ST as [ST|ST]; [right; assumption|]. rewrite ST in Hn. destruct Hn as [<-|[]]. left. reflexivity.
  Qed.

  Theorem search_spec : wa <> [] -> wb <> [] ->
    exists l t', search T mf wa wb = Ok (Some l, t') /\ path start_node l (end_node T wa wb) (g t' (end_node T wa wb)) /\
      (forall l' c, path start_node l' (end_node T wa wb) c -> (g t' (end_node T wa wb) <= c)%Z) /\ linked t' start_node l.
  Proof.
    intros Na Nb. unfold search. apply loop_spec; try assumption.
    - constructor.
      + repeat constructor. intros [].
      + constructor.
      + intros p _ [].
      + intros p [[<-|[]]|[]]. unfold inside. cbn. lia.
      + left. left. reflexivity.
      + intros p [[<-|[]]|[]]. left. repeat split. unfold heuristic. cbn [fst snd fresh_node an_h]. lia.
      + intros p l c [].
      + intros [].
    - intros u q c [].
    - right. reflexivity.
    - cbn [length]. lia.
  Qed.
End Search.

(** ** The alignment read from the path *)
Section Flags.
  Variable T : Type.
  Variable mf : T -> T -> Z.
  Variable wa wb : list T.
  Notation path := (edit_path T mf wa wb).

  (** A node is only marked when its two tokens match. *)
  Definition honest (t : atable) : Prop := forall p, an_match (t p) = true ->
    exists y x a b, p = (S y, S x) /\ nth_error wa x = Some a /\ nth_error wb y = Some b /\ mf a b = 0%Z.

  Lemma move_honest : forall t p q c n, honest t -> move_cost T mf wa wb t p q = Ok (c, n) -> an_match n = true ->
    exists y x a b, q = (S y, S x) /\ nth_error wa x = Some a /\ nth_error wb y = Some b /\ mf a b = 0%Z.
  Proof.
    intros t p [y x] c n H M N. unfold move_cost in M. apply bind_ok in M as [a [Ha M]]. apply bind_ok in M as [b [Hb M]]. injection M as _ <-. unfold score_cell in N.
    destruct ((x =? 0) || (y =? 0)) eqn:Z; [apply H; exact N|]. apply orb_false_iff in Z as [Z1 Z2]. apply Nat.eqb_neq in Z1, Z2.
    destruct (_ =? 0) in N; [|apply H; exact N]. destruct (mf a b =? 0)%Z eqn:E; [|destruct (mf a b =? 1)%Z; apply H; exact N].
    apply Z.eqb_eq in E. destruct x as [|x]; [lia|]. destruct y as [|y]; [lia|]. cbn [before] in Ha, Hb. exists y, x, a, b. split; [reflexivity|].
    destruct (nth_error wa x); [|discriminate]. destruct (nth_error wb y); [|discriminate]. injection Ha as ->. injection Hb as ->. auto.
  Qed.
  Lemma visit_honest : forall v node t heap q t' heap', honest t -> visit_child T mf wa wb v node (t, heap) q = Ok (t', heap') -> honest t'.
  Proof.
    intros v node t heap q t' heap' H E. unfold visit_child in E. destruct (pmem q v); [injection E as <- _; assumption|]. apply bind_ok in E as [[c n] [M E]].
    destruct (_ || _); injection E as <- _; intros p Hp; (destruct (pnode_dec p q) as [->|Np]; [rewrite aupd_same in Hp; eapply move_honest; eassumption|rewrite aupd_other in Hp by assumption; apply H; assumption]).
  Qed.
  Lemma children_honest : forall v node cs t heap t' heap', honest t -> foldM (visit_child T mf wa wb v node) cs (t, heap) = Ok (t', heap') -> honest t'.
  Proof.
    intros v node cs. induction cs as [|q cs IH]; intros t heap t' heap' H E; cbn [foldM] in E; [injection E as <- _; assumption|].
    apply bind_ok in E as [[t1 h1] [E1 E2]]. eapply IH; [|exact E2]. eapply visit_honest; eassumption.
  Qed.
  Lemma loop_honest : forall fuel t heap v l t', honest t -> search_loop T mf wa wb fuel t heap v = Ok (l, t') -> honest t'.
  Proof.
    induction fuel as [|fuel IH]; intros t heap v l t' H E; destruct heap as [|p heap]; cbn [search_loop] in E; [injection E as _ <-; assumption|discriminate|injection E as _ <-; assumption|].
    destruct (sort_by _ (p :: heap)) as [|node heap'] eqn:ES in E; [discriminate|]. destruct (is_end T wa wb node).
    - apply bind_ok in E as [q [_ E]]. injection E as _ <-. assumption.
    - apply bind_ok in E as [[t1 h1] [E1 E2]]. eapply IH; [|exact E2]. eapply children_honest; eassumption.
  Qed.
  Lemma search_honest : forall l t', search T mf wa wb = Ok (l, t') -> honest t'.
  Proof. intros l t' E. eapply loop_honest; [|exact E]. intros p Hp. discriminate. Qed.

  (** A node entered by a step that reads two matching tokens is marked. *)
  Definition kept (t : atable) : Prop := forall y x a b, an_parent (t (S y, S x)) = Some (y, x) ->
    nth_error wa x = Some a -> nth_error wb y = Some b -> mf a b = 0%Z -> an_match (t (S y, S x)) = true.

  Lemma move_keeps : forall t p q c n, move_cost T mf wa wb t p q = Ok (c, n) -> an_parent n = an_parent (t q) /\ (an_match (t q) = true -> an_match n = true).
  Proof.
    intros t p [y x] c n M. unfold move_cost in M. apply bind_ok in M as [a [Ha M]]. apply bind_ok in M as [b [Hb M]]. injection M as _ <-. unfold score_cell.
    destruct ((x =? 0) || (y =? 0)); [split; auto|]. destruct (_ =? 0); [|split; auto]. destruct (mf a b =? 0)%Z; [split; auto|destruct (mf a b =? 1)%Z; split; auto].
  Qed.
  Lemma move_marks : forall t y x c n a b, move_cost T mf wa wb t (y, x) (S y, S x) = Ok (c, n) ->
    nth_error wa x = Some a -> nth_error wb y = Some b -> mf a b = 0%Z -> an_match n = true.
  Proof.
    intros t y x c n a b M Ha Hb E. unfold move_cost in M. cbn [before fst snd] in M. rewrite Ha, Hb in M. cbn [bind] in M.
    replace (Z.of_nat (S x) - 1 =? Z.of_nat x)%Z with true in M by (symmetry; apply Z.eqb_eq; lia). replace (Z.of_nat (S y) - 1 =? Z.of_nat y)%Z with true in M by (symmetry; apply Z.eqb_eq; lia).
    cbn [andb] in M. unfold score_cell in M. cbn [Nat.eqb orb] in M. rewrite E in M. cbn [Z.eqb] in M. injection M as _ <-. reflexivity.
  Qed.
  Lemma visit_kept : forall v node t heap q t' heap', kept t -> visit_child T mf wa wb v node (t, heap) q = Ok (t', heap') -> kept t'.
  Proof.
    intros v node t heap q t' heap' H E. unfold visit_child in E. destruct (pmem q v); [injection E as <- _; assumption|]. apply bind_ok in E as [[c n] [M E]].
    destruct (move_keeps _ _ _ _ _ M) as [K1 K2].
    destruct (_ || _); injection E as <- _; intros y x a b Hp Ha Hb Hm; (destruct (pnode_dec (S y, S x) q) as [<-|Np]; [rewrite aupd_same in *; cbn [an_parent an_match] in *|rewrite aupd_other in * by assumption; eapply H; eassumption]).
    - injection Hp as ->. eapply move_marks; eassumption.
    - apply K2. rewrite K1 in Hp. eapply H; eassumption.
  Qed.
  Lemma children_kept : forall v node cs t heap t' heap', kept t -> foldM (visit_child T mf wa wb v node) cs (t, heap) = Ok (t', heap') -> kept t'.
  Proof.
    intros v node cs. induction cs as [|q cs IH]; intros t heap t' heap' H E; cbn [foldM] in E; [injection E as <- _; assumption|].
    apply bind_ok in E as [[t1 h1] [E1 E2]]. eapply IH; [|exact E2]. eapply visit_kept; eassumption.
  Qed.
  Lemma loop_kept : forall fuel t heap v l t', kept t -> search_loop T mf wa wb fuel t heap v = Ok (l, t') -> kept t'.
  Proof.
    induction fuel as [|fuel IH]; intros t heap v l t' H E; destruct heap as [|p heap]; cbn [search_loop] in E; [injection E as _ <-; assumption|discriminate|injection E as _ <-; assumption|].
    destruct (sort_by _ (p :: heap)) as [|node heap'] eqn:ES in E; [discriminate|]. destruct (is_end T wa wb node).
    - apply bind_ok in E as [q [_ E]]. injection E as _ <-. assumption.
    - apply bind_ok in E as [[t1 h1] [E1 E2]]. eapply IH; [|exact E2]. eapply children_kept; eassumption.
  Qed.
  Lemma search_kept : forall l t', search T mf wa wb = Ok (l, t') -> kept t'.
  Proof. intros l t' E. eapply loop_kept; [|exact E]. intros y x a b Hp. discriminate. Qed.

  Lemma linked_pair : forall t l p pre q r post, linked t p l -> p :: l = pre ++ q :: r :: post -> an_parent (t r) = Some q.
  Proof.
    intros t l. induction l as [|s l IH]; intros p pre q r post H E.
    - destruct pre as [|? [|? ?]]; discriminate.
    - destruct H as [H1 H2]. destruct pre as [|u pre]; cbn [app] in E; [injection E as <- <- _; assumption|]. injection E as _ E. eapply IH; eassumption.
  Qed.
  Lemma read_all : forall t l lx ly y x, In (S y, S x) l -> an_match (t (S y, S x)) = true -> In (y, x) (fst (read_path T wa wb t l lx ly)).
  Proof.
    intros t l. induction l as [|[y' x'] l IH]; intros lx ly y x Hi M; [contradiction|]. cbn [read_path]. destruct Hi as [E|Hi].
    - injection E as -> ->. rewrite M. destruct (read_path T wa wb t l (S x) (S y)) as [al sb]. cbn [fst]. left. f_equal; lia.
    - destruct (an_match (t (y', x'))); [|apply IH; assumption]. specialize (IH x' y' y x Hi M). destruct (read_path T wa wb t l x' y') as [al sb]. cbn [fst] in *. right. assumption.
  Qed.

  Definition not_after (p q : nat * nat) : Prop := fst p <= fst q /\ snd p <= snd q /\ p <> q.

  Lemma step_not_after : forall p q c, edit_step T mf wa wb p q c -> not_after p q.
  Proof. intros p q c H. unfold not_after. inversion H; subst; cbn [fst snd]; repeat split; try lia; intros E; injection E; lia. Qed.
  Lemma not_after_trans : forall p q r, not_after p q -> not_after q r -> not_after p r.
  Proof.
    intros [a b] [c d] [e f] [A1 [A2 A3]] [B1 [B2 B3]]. unfold not_after. cbn [fst snd] in *. repeat split; try lia. intros E. injection E as -> ->. apply A3. f_equal; lia.
  Qed.
  Lemma path_after : forall p l q c, path p l q c -> Forall (not_after p) l /\ StronglySorted not_after l.
  Proof.
    intros p l q c H. induction H as [p|p q l r c c' S P [I1 I2]]; [split; constructor|]. apply step_not_after in S. split; constructor; try assumption.
    apply Forall_impl with (2 := I1). intros s Hs. eapply not_after_trans; eassumption.
  Qed.

  Lemma read_pairs : forall t l lx ly, honest t -> StronglySorted not_after l ->
    let al := fst (read_path T wa wb t l lx ly) in
    (forall i j, In (i, j) al -> In (S i, S j) l /\ exists a b, nth_error wa j = Some a /\ nth_error wb i = Some b /\ mf a b = 0%Z) /\ StronglySorted not_after al.
  Proof.
    intros t l lx ly H SS. revert lx ly. induction SS as [|p l SS IH F]; intros lx ly; [cbn; split; [intros i j []|constructor]|]. destruct p as [y x]. cbn [read_path].
    destruct (an_match (t (y, x))) eqn:M.
    - destruct (IH x y) as [I1 I2]. cbn zeta in *. destruct (read_path T wa wb t l x y) as [al sb]. cbn [fst] in *. destruct (H _ M) as [y' [x' [a [b [E [A [B Q]]]]]]]. injection E as -> ->.
      replace (S y' - 1) with y' by lia. replace (S x' - 1) with x' by lia. split.
      + intros i j [Q'|Q']; [injection Q' as <- <-; split; [left; reflexivity|exists a, b; auto]|]. destruct (I1 i j Q') as [J1 J2]. split; [right; assumption|assumption].
      + constructor; [assumption|]. apply Forall_forall. intros [i j] Hij. destruct (I1 i j Hij) as [J1 _]. rewrite Forall_forall in F. destruct (F _ J1) as [F1 [F2 F3]]. cbn [fst snd] in *.
        unfold not_after. cbn [fst snd]. repeat split; try lia. intros E. injection E as -> ->. apply F3. reflexivity.
    - destruct (IH lx ly) as [I1 I2]. cbn zeta in *. split; [|assumption]. intros i j Hij. destruct (I1 i j Hij) as [J1 J2]. split; [right; assumption|assumption].
  Qed.
End Flags.

(** When one sequence is empty and the other is not, the search raises IndexError. *)
Lemma search_empty_a : forall T (mf : T -> T -> Z) wb, wb <> [] -> search T mf [] wb = Raise IndexError.
Proof. intros T mf [|b wb] H; [contradiction|]. reflexivity. Qed.
Lemma search_empty_b : forall T (mf : T -> T -> Z) wa, wa <> [] -> search T mf wa [] = Raise IndexError.
Proof. intros T mf [|a wa] H; [contradiction|]. unfold search. cbn -[last]. reflexivity. Qed.

(** Paths that cost nothing. *)
Lemma diagonal_path : forall T (mf : T -> T -> Z) w, (forall a, In a w -> mf a a = 0%Z) -> exists l, edit_path T mf w w start_node l (end_node T w w) 0.
Proof.
  intros T mf w R. assert (G : forall n i, i + n = length w -> exists l, edit_path T mf w w (i, i) l (end_node T w w) 0).
  { induction n as [|n IH]; intros i Hi; [exists []; replace i with (length w) by lia; constructor|]. destruct (IH (S i)) as [l L]; [lia|].
    destruct (nth_error w i) as [a|] eqn:Ea; [|apply nth_error_None in Ea; lia]. exists ((S i, S i) :: l). change 0%Z with (0 + 0)%Z. econstructor; [|exact L].
    replace 0%Z with (match_cost (mf a a)) by (rewrite R by (eapply nth_error_In; exact Ea); reflexivity). apply es_both; assumption. }
  exact (G (length w) 0 eq_refl).
Qed.
Lemma free_path : forall T (mf : T -> T -> Z) w l i c, edit_path T mf w w (i, i) l (end_node T w w) c -> (c <= 0)%Z -> l = map (fun i => (S i, S i)) (seq i (length w - i)).
Proof.
  intros T mf w l. induction l as [|q l IH]; intros i c P C; inversion P as [|? ? ? ? c1 c2 S1 P1]; subst.
  - replace (length w - length w) with 0 by lia. reflexivity.
  - pose proof (path_nonneg _ _ _ _ _ _ _ _ P1) as N2. inversion S1 as [|? ? H1 H2|? ? a b H1 H2]; subst; [lia|lia|]. assert (i < length w) by (apply nth_error_Some; congruence).
    pose proof (step_nonneg _ _ _ _ _ _ _ S1). rewrite (IH (S i) c2 P1) by lia. replace (length w - i) with (S (length w - S i)) by lia. reflexivity.
Qed.

(** ** The superbase *)
Section Superbase.
  Variable T : Type.
  Variable mf : T -> T -> Z.
  Variable wa wb : list T.

  Lemma stretch_empty : forall (l : list T) i j, j <= i -> stretch l i j = [].
  Proof. intros l i j H. unfold stretch. apply skipn_all2. rewrite firstn_length. lia. Qed.
  Lemma stretch_one : forall (l : list T) i x, nth_error l i = Some x -> stretch l i (S i) = [x].
  Proof.
    intros l i x H. unfold stretch. rewrite skipn_firstn_comm. replace (S i - i) with 1 by lia.
    revert i H. induction l as [|y l IH]; intros [|i] H; try discriminate; [injection H as ->; reflexivity|]. cbn [skipn]. apply IH. exact H.
  Qed.
  Lemma slice_stretch : forall (l : list T) i x, 1 <= x -> py_slice_to l i (Z.of_nat x - 1) = stretch l i (x - 1).
  Proof.
    intros l i x H. unfold py_slice_to, stretch. replace (Z.of_nat x - 1 <? 0)%Z with false by (symmetry; apply Z.ltb_ge; lia).
    replace (Z.to_nat (Z.max 0 (Z.of_nat x - 1))) with (x - 1) by lia. reflexivity.
  Qed.
  Lemma slice_end : forall (l : list T) i, py_slice_to l i (Z.of_nat (length l) - 1) = stretch l i (length l - 1).
  Proof.
    intros l i. destruct l as [|x l]; [unfold py_slice_to, stretch; cbn; destruct i; reflexivity|]. apply slice_stretch. cbn. lia.
  Qed.
  Lemma added_to : forall i j x y, 1 <= x -> 1 <= y -> add_to_superbase T wa wb i j x y = stretch wa i (x - 1) ++ stretch wb j (y - 1).
  Proof.
    intros i j x y Hx Hy. unfold add_to_superbase. rewrite !slice_stretch by assumption.
    destruct (_ || _)%bool eqn:E; [reflexivity|]. apply orb_false_iff in E as [E1 E2]. apply Z.ltb_ge in E1, E2. rewrite !stretch_empty by lia. reflexivity.
  Qed.
  Lemma added_end : forall i j, add_to_superbase T wa wb i j (length wa) (length wb) = stretch wa i (length wa - 1) ++ stretch wb j (length wb - 1).
  Proof.
    intros i j. unfold add_to_superbase. rewrite !slice_end.
    destruct (_ || _)%bool eqn:E; [reflexivity|]. apply orb_false_iff in E as [E1 E2]. apply Z.ltb_ge in E1, E2. rewrite !stretch_empty by lia. reflexivity.
  Qed.
  Lemma read_woven : forall t l i j, honest T mf wa wb t -> snd (read_path T wa wb t l i j) = woven wa wb i j (fst (read_path T wa wb t l i j)).
  Proof.
    intros t l. induction l as [|[y x] l IH]; intros i j H; cbn [read_path]; [apply added_end|].
    destruct (an_match (t (y, x))) eqn:M; [|apply IH; exact H]. destruct (H _ M) as [y' [x' [a [b [E [A [B _]]]]]]]. injection E as -> ->.
    specialize (IH (S x') (S y') H). destruct (read_path T wa wb t l (S x') (S y')) as [al sb]. cbn [fst snd] in *. subst sb.
    replace (S y' - 1) with y' by lia. replace (S x' - 1) with x' by lia. cbn [woven]. rewrite added_to by lia. replace (S x' - 1) with x' by lia. replace (S y' - 1) with y' by lia.
    rewrite A, (stretch_one _ _ _ A), <- app_assoc. reflexivity.
  Qed.
End Superbase.
