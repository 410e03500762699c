(** Kahn's algorithm, as networkx implements topological_sort, meets the assumption
    [topo_ok] made in the theorems about collate. *)
From Verif Require Import Py TokenModel SuffixModel IndexModel GraphModel Lib GraphSpec GraphProof MergeProof.
From Coq Require Import Permutation Relations Sorted.
Open Scope list_scope.
Open Scope nat_scope.

(** ** In a finite acyclic graph some member of a non-empty set has no predecessor in it *)
Lemma acyclic_minimal : forall g (S : list vid), acyclic g -> S <> [] ->
  exists v, In v S /\ forall u, edge g u v -> ~ In u S.
Proof.
  intros g S AC NE.
  assert (D : forall v, (forall u, edge g u v -> ~ In u S) \/ exists u, edge g u v /\ In u S).
  { intros v. assert (G : forall L, (forall u, In (u, v) L -> ~ In u S) \/ exists u, In (u, v) L /\ In u S).
    { induction L as [|[a b] L IH]; [left; intros u []|].
      destruct IH as [IH|[u [U1 U2]]]; [|right; exists u; split; auto; right; assumption].
      destruct (Nat.eq_dec b v) as [->|N].
      - destruct (in_dec Nat.eq_dec a S) as [I|I].
        + right. exists a. split; auto. left. reflexivity.
        + left. intros u [E|H]; [injection E as <-; assumption|auto].
      - left. intros u [E|H]; [injection E as <- <-; congruence|auto]. }
    apply (G (edge_pairs g)). }
  assert (E : (exists v, In v S /\ forall u, edge g u v -> ~ In u S) \/ forall v, In v S -> exists u, edge g u v /\ In u S).
  { assert (G : forall L, (exists v, In v L /\ forall u, edge g u v -> ~ In u S) \/ forall v, In v L -> exists u, edge g u v /\ In u S).
    { induction L as [|a L IH]; [right; intros v []|]. destruct IH as [[v [V1 V2]]|IH].
      - left. exists v. split; auto. right. assumption.
      - destruct (D a) as [A|A].
        + left. exists a. split; auto. left. reflexivity.
        + right. intros v [<-|H]; auto. }
    apply G. }
  destruct E as [E|E]; [assumption|]. exfalso.
  assert (C : forall n, exists l, length l = n + 1 /\ incl l S /\ StronglySorted (clos_trans vid (edge g)) l).
  { induction n as [|n [l [L1 [L2 L3]]]].
    - destruct S as [|s S]; [congruence|]. exists [s]. split; [reflexivity|]. split.
      + intros x [<-|[]]. left. reflexivity.
      + constructor; [constructor|constructor].
    - destruct l as [|a l]; [cbn in L1; lia|]. destruct (E a) as [u [U1 U2]]; [apply L2; left; reflexivity|].
      exists (u :: a :: l). split; [cbn [length] in *; lia|]. split.
      + intros x [<-|H]; auto.
      + constructor; [assumption|]. inversion L3; subst. constructor; [apply t_step; assumption|].
        eapply Forall_impl; [|eassumption]. intros b Hb. apply t_trans with a; [apply t_step|]; assumption. }
  destruct (C (length S)) as [l [L1 [L2 L3]]].
  assert (N : NoDup l).
  { clear - L3 AC. induction L3 as [|a l L3 IH F]; constructor; auto. intro I. rewrite Forall_forall in F. apply (AC a). apply F. assumption. }
  pose proof (NoDup_incl_length N L2). lia.
Qed.

Section Kahn.
  Variable g : graph.
  Hypothesis NV : NoDup (vertices g).
  Hypothesis EV : forall u v, edge g u v -> In u (vertices g) /\ In v (vertices g).
  Hypothesis NE : NoDup (edge_pairs g).

  Definition mem (x : vid) (l : list vid) : bool := existsb (Nat.eqb x) l.
  Lemma mem_iff : forall x l, mem x l = true <-> In x l.
  Proof. intros. apply (existsb_eqb _ nat_eqb_ok). Qed.

  (** Edges into [c] whose source is not yet output. *)
  Definition waiting (out : list vid) (c : vid) : list (vid * vid * str) :=
    filter (fun e => (snd (fst e) =? c) && negb (mem (fst (fst e)) out)) (g_edges g).

  Lemma waiting_nil : forall out c, waiting out c = [] <-> forall u, edge g u c -> In u out.
  Proof.
    intros out c. split.
    - intros E u Hu. destruct (mem u out) eqn:M; [apply mem_iff; assumption|]. exfalso.
      unfold edge, edge_pairs in Hu. apply in_map_iff in Hu as [[e l] [Ee Hu]]. cbn [fst] in Ee. subst e.
      assert (I : In ((u, c), l) (waiting out c)).
      { apply filter_In. split; [assumption|]. cbn [fst snd]. rewrite Nat.eqb_refl, M. reflexivity. }
      rewrite E in I. contradiction.
    - intros H. unfold waiting. apply filter_none. intros [[u v] l] Hi. cbn [fst snd].
      destruct (v =? c) eqn:E; [|reflexivity]. apply Nat.eqb_eq in E. subst v. cbn [andb]. apply negb_false_iff, mem_iff.
      apply H. unfold edge, edge_pairs. apply in_map_iff. exists ((u, c), l). auto.
  Qed.

  (** Outputting [v] removes one waiting edge from each of its successors. *)
  Lemma waiting_out : forall out v c, ~ In v out ->
    length (waiting out c) = length (waiting (v :: out) c) + (if mem c (map (fun e => snd (fst e)) (out_edges g v)) then 1 else 0).
  Proof.
    intros out v c NI. assert (M0 : mem v out = false) by (destruct (mem v out) eqn:M; auto; apply mem_iff in M; contradiction).
    unfold waiting, out_edges. clear NV EV. unfold edge_pairs in NE.
    induction (g_edges g) as [|[[a b] l] es IH]; [reflexivity|].
    cbn [map fst] in NE. inversion NE as [|? ? N1 N2]; subst. specialize (IH N2).
    cbn [filter fst snd]. destruct (a =? v) eqn:Ea.
    - apply Nat.eqb_eq in Ea. subst a. cbn [map fst snd]. change (mem v (v :: out)) with ((v =? v) || mem v out).
      rewrite Nat.eqb_refl. cbn [orb negb]. rewrite M0. cbn [negb]. rewrite andb_false_r, andb_true_r.
      change (mem c (b :: ?l)) with ((c =? b) || mem c l). rewrite (Nat.eqb_sym c b).
      destruct (b =? c) eqn:Eb; cbn [orb length]; [|exact IH].
      apply Nat.eqb_eq in Eb. subst b.
      assert (Z : mem c (map (fun e : vid * vid * str => snd (fst e)) (filter (fun e => fst (fst e) =? v) es)) = false).
      { destruct (mem c _) eqn:M; auto. apply mem_iff in M. apply in_map_iff in M as [[[x y] l'] [E M]]. cbn [fst snd] in E. subst y.
        apply filter_In in M as [M1 M2]. cbn [fst] in M2. apply Nat.eqb_eq in M2. subst x.
        exfalso. apply N1. apply in_map_iff. exists ((v, c), l'). auto. }
      rewrite Z in IH. lia.
    - change (mem a (v :: out)) with ((a =? v) || mem a out). rewrite Ea. cbn [orb].
      destruct ((b =? c) && negb (mem a out)); cbn [length]; lia.
  Qed.

  Record kinv (indeg : list (vid * nat)) (zero out : list vid) : Prop := {
    ki_nodup : NoDup (zero ++ out);
    ki_indeg : forall c, In c (vertices g) -> dget Nat.eqb c indeg = Some (length (waiting out c));
    ki_zero : forall c, In c (zero ++ out) <-> In c (vertices g) /\ waiting out c = [];
    ki_order : forall l1 v l2 u, out = l1 ++ v :: l2 -> edge g u v -> In u l2
  }.

  Lemma relax_spec : forall es0 es v indeg0 zero0 out, out_edges g v = es0 ++ es -> ~ In v out -> In v (vertices g) ->
    (forall c, In c (vertices g) -> dget Nat.eqb c indeg0 =
       Some (length (waiting (v :: out) c) + (if mem c (map (fun e => snd (fst e)) es) then 1 else 0))) ->
    forall indeg zero, fold_left kahn_relax es (indeg0, zero0) = (indeg, zero) ->
    (forall c, In c (vertices g) -> dget Nat.eqb c indeg = Some (length (waiting (v :: out) c))) /\
    exists new, zero = new ++ zero0 /\ NoDup new /\
      forall c, In c new <-> In c (map (fun e : vid * vid * str => snd (fst e)) es) /\ waiting (v :: out) c = [].
  Proof.
    intros es0 es. revert es0. induction es as [|e es IH]; intros es0 v indeg0 zero0 out OE NI Hv D indeg zero F.
    - injection F as <- <-. split.
      + intros c Hc. rewrite (D c Hc). cbn. rewrite Nat.add_0_r. reflexivity.
      + exists []. split; [reflexivity|]. split; [constructor|]. intros c. cbn. tauto.
    - cbn [fold_left] in F. unfold kahn_relax at 2 in F. set (c := snd (fst e)) in *.
      assert (Hc : edge g v c).
      { assert (I : In e (out_edges g v)) by (rewrite OE; apply in_or_app; right; left; reflexivity).
        apply filter_In in I as [I1 I2]. apply Nat.eqb_eq in I2. unfold edge, edge_pairs. apply in_map_iff. exists e. split; [|assumption].
        destruct e as [[a b] l]. cbn in *. subst. reflexivity. }
      assert (Cv : In c (vertices g)) by (apply (EV v c Hc)).
      assert (NC : mem c (map (fun e => snd (fst e)) es) = false).
      { destruct (mem c _) eqn:M; auto. apply mem_iff in M. exfalso.
        assert (N : NoDup (map fst (out_edges g v))).
        { unfold out_edges. clear - NE. unfold edge_pairs in NE. induction (g_edges g) as [|x l IH]; [constructor|].
          cbn [map] in NE. inversion NE; subst. cbn [filter]. destruct (fst (fst x) =? v); auto. cbn [map]. constructor; auto.
          intro C. apply in_map_iff in C as [y [E C]]. apply filter_In in C as [C _]. apply H1. apply in_map_iff. exists y. auto. }
        rewrite OE, map_app in N. apply NoDup_app_iff in N as [_ [N _]]. cbn [map] in N. inversion N as [|? ? N1 N2]; subst.
        apply N1. apply in_map_iff in M as [e' [E M]]. apply in_map_iff. exists e'. split; [|assumption].
        assert (A : fst (fst e') = v /\ fst (fst e) = v).
        { split; [assert (I : In e' (out_edges g v)) by (rewrite OE; apply in_or_app; right; right; assumption)
                 |assert (I : In e (out_edges g v)) by (rewrite OE; apply in_or_app; right; left; reflexivity)];
            apply filter_In in I as [_ I]; apply Nat.eqb_eq in I; assumption. }
        destruct A as [A1 A2]. destruct e as [[a b] l], e' as [[a' b'] l']. cbn in *. subst. reflexivity. }
      rewrite (D c Cv) in F. change (mem c (map _ (e :: es))) with ((c =? c) || mem c (map (fun e => snd (fst e)) es)) in F.
      rewrite Nat.eqb_refl in F. cbn [orb] in F. rewrite Nat.add_sub in F.
      edestruct (fun A B C => IH (es0 ++ [e]) v (dset Nat.eqb c (length (waiting (v :: out) c)) indeg0)
        (if length (waiting (v :: out) c) =? 0 then c :: zero0 else zero0) out A B Hv C indeg zero F) as [R1 [new [R2 [R3 R4]]]].
      + rewrite OE, <- app_assoc. reflexivity.
      + assumption.
      + intros x Hx. rewrite (dget_set _ nat_eqb_ok). destruct (c =? x) eqn:E.
        * apply Nat.eqb_eq in E. subst x. rewrite NC, Nat.add_0_r. reflexivity.
        * rewrite (D x Hx). change (mem x (map _ (e :: es))) with ((x =? c) || mem x (map (fun e => snd (fst e)) es)).
          rewrite (Nat.eqb_sym x c), E. reflexivity.
      + split; [exact R1|]. destruct (length (waiting (v :: out) c) =? 0) eqn:Z.
        * exists (new ++ [c]). split; [rewrite R2, <- app_assoc; reflexivity|].
          assert (Z' : waiting (v :: out) c = []) by (apply Nat.eqb_eq, length_zero_iff_nil in Z; assumption).
          assert (NN : ~ In c new).
          { intro C. apply R4 in C as [C _]. apply mem_iff in C. congruence. }
          split.
          -- apply NoDup_app_iff. split; [assumption|]. split; [constructor; [intros []|constructor]|].
             intros x Hx [<-|[]]. contradiction.
          -- intros x. rewrite in_app_iff, R4. cbn [map In]. fold c. split.
             ++ intros [[H1 H2]|[<-|[]]]; auto.
             ++ intros [[<-|H1] H2]; auto.
        * exists new. split; [exact R2|]. split; [exact R3|]. intros x. rewrite R4. cbn [map In]. fold c. split; [tauto|].
          intros [[<-|H1] H2]; [rewrite H2 in Z; discriminate|auto].
  Qed.

  Lemma kahn_step : forall indeg v zero out, kinv indeg (v :: zero) out ->
    forall indeg' zero', fold_left kahn_relax (out_edges g v) (indeg, zero) = (indeg', zero') ->
    kinv indeg' zero' (v :: out).
  Proof.
    intros indeg v zero out [N D Z O] indeg' zero' F.
    assert (NI : ~ In v out).
    { cbn [app] in N. inversion N; subst. intro C. apply H1. apply in_or_app. auto. }
    assert (V0 : In v (vertices g) /\ waiting out v = []) by (apply Z; left; reflexivity). destruct V0 as [Hv Wv].
    edestruct (fun C => relax_spec [] (out_edges g v) v indeg zero out eq_refl NI Hv C indeg' zero' F) as [R1 [new [R2 [R3 R4]]]].
    { intros c Hc. rewrite (D c Hc), (waiting_out out v c NI). reflexivity. }
    assert (SUB : forall c, waiting out c = [] -> waiting (v :: out) c = []).
    { intros c Hc. rewrite waiting_nil in *. intros u Hu. right. auto. }
    constructor.
    - rewrite R2, <- app_assoc. apply NoDup_app_iff. split; [assumption|]. split.
      + apply (Permutation_NoDup (l := (v :: zero) ++ out)); [|assumption]. cbn [app]. apply Permutation_middle.
      + intros c Hc Hi. apply R4 in Hc as [Hc Wc].
        assert (I : In c ((v :: zero) ++ out)).
        { apply in_app_or in Hi as [Hi|[<-|Hi]]; [right; apply in_or_app; auto|left; reflexivity|right; apply in_or_app; auto]. }
        apply Z in I as [_ I]. rewrite waiting_nil in I. apply NI. apply I.
        apply in_map_iff in Hc as [[[a b] l] [E Hc]]. cbn [fst snd] in E. subst b. apply filter_In in Hc as [H1 H2].
        cbn [fst] in H2. apply Nat.eqb_eq in H2. subst a. unfold edge, edge_pairs. apply in_map_iff. exists ((v, c), l). auto.
    - exact R1.
    - intros c. rewrite R2, <- app_assoc, in_app_iff, R4. split.
      + intros [[H1 H2]|H].
        * split; [|assumption]. apply in_map_iff in H1 as [[[a b] l] [E H1]]. cbn [fst snd] in E. subst b.
          apply filter_In in H1 as [H1 _]. apply (EV a c). unfold edge, edge_pairs. apply in_map_iff. exists ((a, c), l). auto.
        * assert (I : In c ((v :: zero) ++ out)).
          { apply in_app_or in H as [H|[<-|H]]; [right; apply in_or_app; auto|left; reflexivity|right; apply in_or_app; auto]. }
          apply Z in I as [I1 I2]. split; [assumption|apply SUB; assumption].
      + intros [H1 H2]. destruct (waiting out c) as [|w ws] eqn:Wc.
        * right. assert (I : In c ((v :: zero) ++ out)) by (apply Z; auto).
          destruct I as [<-|I]; [apply in_or_app; right; left; reflexivity|].
          apply in_app_or in I as [I|I]; apply in_or_app; [auto|right; right; assumption].
        * left. split; [|assumption]. pose proof (waiting_out out v c NI) as L. rewrite Wc, H2 in L. cbn [length] in L.
          destruct (mem c (map (fun e => snd (fst e)) (out_edges g v))) eqn:M; [apply mem_iff; assumption|lia].
    - intros l1 x l2 u E Hu. destruct l1 as [|y l1].
      + cbn [app] in E. injection E as <- <-. rewrite waiting_nil in Wv. apply Wv. assumption.
      + cbn [app] in E. injection E as <- E. apply (O l1 x l2 u E Hu).
  Qed.

  Hypothesis AC : acyclic g.

  Lemma kahn_loop_spec : forall fuel indeg zero out, kinv indeg zero out ->
    fuel + length out = length (g_verts g) ->
    let l := kahn_loop fuel g indeg zero out in
    Permutation l (vertices g) /\ forall u v, edge g u v -> before u v l.
  Proof.
    assert (FIN : forall indeg zero out, kinv indeg zero out -> length out = length (g_verts g) \/ zero = [] ->
      Permutation (rev out) (vertices g) /\ forall u v, edge g u v -> before u v (rev out)).
    { intros indeg zero out K H. pose proof K as [N D Z O]. apply NoDup_app_iff in N as [_ [N2 _]].
      assert (I : incl out (vertices g)) by (intros x Hx; apply Z; apply in_or_app; auto).
      assert (I' : incl (vertices g) out).
      { destruct H as [H| ->].
        - apply NoDup_length_incl; auto. unfold vertices. rewrite map_length. lia.
        - set (S := filter (fun v => negb (mem v out)) (vertices g)).
          destruct S as [|s S'] eqn:ES.
          + intros x Hx. destruct (mem x out) eqn:M; [apply mem_iff; assumption|]. exfalso.
            assert (C : In x S) by (apply filter_In; split; [assumption|rewrite M; reflexivity]). rewrite ES in C. contradiction.
          + exfalso. destruct (acyclic_minimal g S AC) as [v [V1 V2]]; [rewrite ES; discriminate|].
            apply filter_In in V1 as [V1 V3]. apply negb_true_iff in V3.
            assert (C : In v ([] ++ out)).
            { apply Z. split; [assumption|]. apply waiting_nil. intros u Hu. destruct (mem u out) eqn:M; [apply mem_iff; assumption|].
              exfalso. apply (V2 u Hu). apply filter_In. split; [apply (EV u v Hu)|rewrite M; reflexivity]. }
            cbn [app] in C. apply mem_iff in C. congruence. }
      split.
      - transitivity out; [symmetry; apply Permutation_rev|]. apply NoDup_Permutation; auto. intros x. split; [apply I|apply I'].
      - intros u v Hu. assert (Hv : In v out) by (apply I', (EV u v Hu)). apply in_split in Hv as [l1 [l2 E]].
        pose proof (O l1 v l2 u E Hu) as Hl. apply in_split in Hl as [l3 [l4 E2]].
        exists (rev l4), (rev l3), (rev l1). rewrite E, E2. rewrite !rev_app_distr. cbn [rev]. rewrite !rev_app_distr. cbn [rev app].
        rewrite <- !app_assoc. reflexivity. }
    induction fuel as [|fuel IH]; intros indeg zero out K F.
    - cbn [kahn_loop]. apply (FIN indeg zero out K). left. lia.
    - cbn [kahn_loop]. destruct zero as [|v zero]; [apply (FIN indeg [] out K); auto|].
      destruct (fold_left kahn_relax (out_edges g v) (indeg, zero)) as [indeg' zero'] eqn:E.
      apply IH; [apply (kahn_step _ _ _ _ K _ _ E)|cbn [length]; lia].
  Qed.

  Lemma kahn_ok : exists l, kahn g = Ok l /\ Permutation l (vertices g) /\ forall u v, edge g u v -> before u v l.
  Proof.
    unfold kahn. cbv zeta.
    destruct (kahn_loop_spec (length (g_verts g)) (indegrees g)
      (rev (filter (fun v => length (in_edges g v) =? 0) (vertices g))) []) as [P B].
    - assert (WE : forall c, waiting [] c = in_edges g c).
      { intros c. unfold waiting, in_edges. apply filter_ext. intros e. cbn. rewrite andb_true_r. reflexivity. }
      constructor.
      + rewrite app_nil_r. apply NoDup_rev, NoDup_filter. assumption.
      + intros c Hc. rewrite WE. unfold indegrees. clear - Hc. induction (vertices g) as [|x l IH]; [contradiction|].
        cbn [map dget]. destruct (c =? x) eqn:E; [apply Nat.eqb_eq in E; subst; reflexivity|]. apply IH.
        destruct Hc as [->|Hc]; [rewrite Nat.eqb_refl in E; discriminate|assumption].
      + intros c. rewrite app_nil_r, <- in_rev, filter_In, WE, Nat.eqb_eq, length_zero_iff_nil. reflexivity.
      + intros l1 v l2 u E. destruct l1; discriminate.
    - cbn [length]. lia.
    - assert (L : length (kahn_loop (length (g_verts g)) g (indegrees g)
        (rev (filter (fun v => length (in_edges g v) =? 0) (vertices g))) []) = length (g_verts g)).
      { rewrite (Permutation_length P). unfold vertices. apply map_length. }
      rewrite L, Nat.eqb_refl. eauto.
  Qed.
End Kahn.

Theorem kahn_topo_ok : topo_ok kahn.
Proof. intros g NV EV NE AC. apply kahn_ok; assumption. Qed.
