(** Segmentation: absorbing a vertex, and the loop of [join]. *)
From Verif Require Import Py Lib TokenModel SuffixModel IndexModel GraphModel GraphSpec GraphProof MergeProof RankProof.
From Coq Require Import Permutation Relations.
Open Scope list_scope.
Open Scope nat_scope.

(** ** Edges as a relation *)
Lemma out_edges_In : forall g u e, In e (out_edges g u) <-> In e (g_edges g) /\ fst (fst e) = u.
Proof. intros. unfold out_edges. rewrite filter_In, Nat.eqb_eq. tauto. Qed.
Lemma in_edges_iff : forall g u e, In e (in_edges g u) <-> In e (g_edges g) /\ snd (fst e) = u.
Proof. intros. unfold in_edges. rewrite filter_In, Nat.eqb_eq. tauto. Qed.

Lemma edge_In : forall g u v, edge g u v <-> exists l, In ((u, v), l) (g_edges g).
Proof.
  intros. unfold edge, edge_pairs. rewrite in_map_iff. split.
  - intros [[e l] [E H]]. simpl in E. subst. eauto.
  - intros [l H]. exists ((u, v), l). auto.
Qed.

Lemma NoDup_map_filter : forall {A B} (f : A -> B) (h : A -> bool) l, NoDup (map f l) -> NoDup (map f (filter h l)).
Proof.
  induction l as [|a l IH]; simpl; intros N; [constructor|]. inversion N; subst. destruct (h a); simpl; auto.
  constructor; auto. intro C. apply H1. apply in_map_iff in C as [x [C1 C2]]. apply filter_In in C2 as [C2 _].
  rewrite <- C1. apply in_map. assumption.
Qed.

Lemma out_single : forall g u c l, NoDup (edge_pairs g) -> out_edges g u = [((u, c), l)] ->
  forall w, edge g u w <-> w = c.
Proof.
  intros g u c l N E w. rewrite edge_In. split.
  - intros [l' H]. assert (I : In ((u, w), l') (out_edges g u)) by (apply out_edges_In; auto).
    rewrite E in I. destruct I as [I|[]]. congruence.
  - intros ->. exists l. assert (I : In ((u, c), l) (out_edges g u)) by (rewrite E; left; reflexivity).
    apply out_edges_In in I. tauto.
Qed.

Lemma out_single_inv : forall g u c, NoDup (edge_pairs g) -> (forall w, edge g u w <-> w = c) ->
  exists l, out_edges g u = [((u, c), l)].
Proof.
  intros g u c N H.
  assert (ND : NoDup (map fst (out_edges g u))) by (apply NoDup_map_filter; exact N).
  assert (A : forall e, In e (out_edges g u) -> fst e = (u, c)).
  { intros [[a b] l] I. apply out_edges_In in I as [I E]. simpl in E. subst a. simpl. f_equal. apply H. apply edge_In. eauto. }
  assert (X : edge g u c) by (apply H; reflexivity). apply edge_In in X as [l X].
  assert (I : In ((u, c), l) (out_edges g u)) by (apply out_edges_In; auto).
  destruct (out_edges g u) as [|e1 [|e2 r]] eqn:E.
  - contradiction.
  - destruct I as [->|[]]. eauto.
  - exfalso. simpl in ND. inversion ND; subst. apply H2. left.
    rewrite (A e1), (A e2); simpl; auto.
Qed.

Lemma in_single : forall g c, NoDup (edge_pairs g) ->
  (length (in_edges g c) = 1 <-> exists u, forall w, edge g w c <-> w = u).
Proof.
  intros g c N. split.
  - intros L. destruct (in_edges g c) as [|[[u c'] l] [|? ?]] eqn:E; try discriminate.
    assert (I : In ((u, c'), l) (in_edges g c)) by (rewrite E; left; reflexivity).
    apply in_edges_iff in I as [I1 I2]. simpl in I2. subst c'. exists u. intros w. rewrite edge_In. split.
    + intros [l' H]. assert (I : In ((w, c), l') (in_edges g c)) by (apply in_edges_iff; auto).
      rewrite E in I. destruct I as [I|[]]. congruence.
    + intros ->. eauto.
  - intros [u H]. assert (ND : NoDup (map fst (in_edges g c))) by (apply NoDup_map_filter; exact N).
    assert (A : forall e, In e (in_edges g c) -> fst e = (u, c)).
    { intros [[a b] l] I. apply in_edges_iff in I as [I E]. simpl in E. subst b. simpl. f_equal. apply H. apply edge_In. eauto. }
    assert (X : edge g u c) by (apply H; reflexivity). apply edge_In in X as [l X].
    assert (I : In ((u, c), l) (in_edges g c)) by (apply in_edges_iff; auto).
    destruct (in_edges g c) as [|e1 [|e2 r]] eqn:E; [contradiction|reflexivity|].
    exfalso. simpl in ND. inversion ND; subst. apply H2. left. rewrite (A e1), (A e2); simpl; auto.
Qed.

Lemma no_edge_from_end : forall g W u, graph_of g W -> ~ edge g v_end u.
Proof.
  intros g W u GI H. apply (graph_edge_path g W) in H as [p [H1 H2]]; auto.
  apply pairs_In in H2 as [l1 [l2 E]]. pose proof (gi_simple _ _ GI p H1) as N.
  unfold chain in *. change (v_start :: map fst (snd p) ++ [v_end]) with ((v_start :: map fst (snd p)) ++ [v_end]) in *.
  destruct (exists_last (l := u :: l2)) as [l3 [z E3]]; [discriminate|].
  rewrite E3 in E. replace (l1 ++ v_end :: l3 ++ [z]) with ((l1 ++ v_end :: l3) ++ [z]) in E by (rewrite <- app_assoc; reflexivity).
  apply app_inj_tail in E as [E _]. rewrite E in N.
  apply NoDup_app_iff in N as [_ [_ N]]. apply (N v_end); [|left; reflexivity].
  apply in_or_app. right. left. reflexivity.
Qed.

(** ** Fusing the step after [v] into the step [v] of a path *)
Fixpoint fuse (v : vid) (l : list (vid * list token)) : list (vid * list token) :=
  match l with
  | [] => []
  | (a, ts) :: r =>
    if a =? v then match r with (_, ts') :: r' => (a, ts ++ ts') :: r' | [] => [(a, ts)] end
    else (a, ts) :: fuse v r
  end.
Definition fuse_path (v : vid) (p : wpath) : wpath := (fst p, fuse v (snd p)).

Lemma fuse_none : forall v l, ~ In v (map fst l) -> fuse v l = l.
Proof.
  induction l as [|[a ts] l IH]; simpl; intros H; auto. destruct (a =? v) eqn:E.
  - apply Nat.eqb_eq in E. subst. exfalso. auto.
  - f_equal. auto.
Qed.
Lemma fuse_mid : forall v c ts ts' l1 l2, ~ In v (map fst l1) ->
  fuse v (l1 ++ (v, ts) :: (c, ts') :: l2) = l1 ++ (v, ts ++ ts') :: l2.
Proof.
  induction l1 as [|[a t] l1 IH]; simpl; intros l2 H.
  - rewrite Nat.eqb_refl. reflexivity.
  - destruct (a =? v) eqn:E; [apply Nat.eqb_eq in E; subst; exfalso; auto|]. f_equal. auto.
Qed.

Section Absorb.
  Variables (cc : cclass) (g : graph) (W : list wpath) (v cand : vid).
  Hypothesis GI : graph_of g W.
  Hypothesis H1 : forall w, edge g v w <-> w = cand.
  Hypothesis H2 : forall u, edge g u cand <-> u = v.
  Hypothesis Hc : cand <> v_end.
  Hypothesis Hv : v <> v_start.
  Hypothesis Hsing : forall p ts, In p W -> In (cand, ts) (snd p) -> exists t, ts = [t].

  Lemma ab_edge : edge g v cand. Proof. apply H1. reflexivity. Qed.
  Lemma ab_verts : In v (vertices g) /\ In cand (vertices g).
  Proof. apply (graph_edge_verts g W); auto. apply ab_edge. Qed.
  Lemma ab_neq : v <> cand.
  Proof. intros E. apply (gi_acyclic _ _ GI v). apply t_step. rewrite E at 2. apply ab_edge. Qed.
  Lemma ab_cand_start : cand <> v_start.
  Proof. intros E. pose proof ab_edge as X. rewrite E in X. apply (no_edge_to_start g W GI v X). Qed.
  Lemma ab_v_end : v <> v_end.
  Proof. intros E. pose proof ab_edge as X. rewrite E in X. apply (no_edge_from_end g W cand GI X). Qed.

  Definition off (p : wpath) : Prop := ~ In v (map fst (snd p)) /\ ~ In cand (map fst (snd p)).
  Definition through (p : wpath) l1 ts t l2 : Prop :=
    snd p = l1 ++ (v, ts) :: (cand, [t]) :: l2 /\ ~ In v (map fst l1) /\ ~ In cand (map fst l1) /\
    ~ In v (map fst l2) /\ ~ In cand (map fst l2).

  Lemma path_cases : forall p, In p W -> off p \/ exists l1 ts t l2, through p l1 ts t l2.
  Proof.
    intros p Hp. destruct (in_dec Nat.eq_dec v (map fst (snd p))) as [I|N].
    - right. apply in_map_iff in I as [[v' ts] [E I]]. simpl in E. subst v'.
      apply in_split in I as [l1 [r E]].
      assert (NX : exists ts' l2, r = (cand, ts') :: l2).
      { destruct r as [|[b ts'] l2].
        - exfalso. assert (X : edge g v v_end).
          { apply (graph_edge_path g W); auto. exists p. split; auto. apply pairs_In.
            exists (v_start :: map fst l1), []. unfold chain. rewrite E, map_app. simpl. rewrite <- app_assoc. reflexivity. }
          apply H1 in X. congruence.
        - assert (X : edge g v b).
          { apply (graph_edge_path g W); auto. exists p. split; auto. apply pairs_In.
            exists (v_start :: map fst l1), (map fst l2 ++ [v_end]). unfold chain. rewrite E, map_app. simpl. rewrite <- app_assoc. reflexivity. }
          apply H1 in X. subst b. eauto. }
      destruct NX as [ts' [l2 ->]].
      destruct (Hsing p ts' Hp) as [t ->]; [rewrite E; apply in_or_app; right; right; left; reflexivity|].
      exists l1, ts, t, l2. split; [assumption|].
      pose proof (gi_simple _ _ GI p Hp) as ND. unfold chain in ND. rewrite E, map_app in ND. simpl in ND.
      inversion ND as [|? ? _ ND']; subst. apply NoDup_app_iff in ND' as [ND' _].
      apply NoDup_app_iff in ND' as [_ [ND1 ND2]]. inversion ND1 as [|? ? N1 ND3]; subst. inversion ND3 as [|? ? N2 ND4]; subst.
      repeat split.
      + intro C. apply (ND2 v C). left. reflexivity.
      + intro C. apply (ND2 cand C). right. left. reflexivity.
      + intro C. apply N1. right. assumption.
      + assumption.
    - left. split; auto. intro C. apply in_map_iff in C as [[b ts] [E I]]. simpl in E. subst b.
      apply in_split in I as [l1 [r E]].
      destruct (exists_last (l := v_start :: map fst l1)) as [l3 [z E3]]; [discriminate|].
      assert (X : edge g z cand).
      { apply (graph_edge_path g W); auto. exists p. split; auto. apply pairs_In.
        exists l3, (map fst r ++ [v_end]). unfold chain. rewrite E, map_app. simpl.
        change (v_start :: (map fst l1 ++ cand :: map fst r) ++ [v_end]) with ((v_start :: (map fst l1 ++ cand :: map fst r)) ++ [v_end]).
        replace (v_start :: map fst l1 ++ cand :: map fst r) with ((v_start :: map fst l1) ++ cand :: map fst r) by reflexivity.
        rewrite E3, <- !app_assoc. reflexivity. }
      apply H2 in X. subst z.
      assert (I : In v (v_start :: map fst l1)) by (rewrite E3; apply in_or_app; right; left; reflexivity).
      destruct I as [I|I]; [congruence|]. apply N. rewrite E, map_app. apply in_or_app. auto.
  Qed.

  Definition W' : list wpath := map (fuse_path v) W.

  Lemma W'_In : forall p', In p' W' <-> exists p, In p W /\ p' = fuse_path v p.
  Proof. intros. unfold W'. rewrite in_map_iff. split; intros [p [A B]]; exists p; auto. Qed.

  Lemma W'_sigla : map fst W' = map fst W.
  Proof. unfold W'. rewrite map_map. reflexivity. Qed.

  Lemma fuse_off : forall p, off p -> fuse_path v p = p.
  Proof. intros p [A _]. unfold fuse_path. rewrite fuse_none by assumption. destruct p; reflexivity. Qed.
  Lemma fuse_through : forall p l1 ts t l2, through p l1 ts t l2 ->
    fuse_path v p = (fst p, l1 ++ (v, ts ++ [t]) :: l2).
  Proof. intros p l1 ts t l2 [E [A _]]. unfold fuse_path. rewrite E, fuse_mid by assumption. reflexivity. Qed.

  (** Pairs of the fused path. *)
  Lemma fuse_pairs : forall p x y, In p W ->
    (In (x, y) (pairs (chain (fuse_path v p))) <->
     if x =? v then In (cand, y) (pairs (chain p)) else x <> cand /\ In (x, y) (pairs (chain p))).
  Proof.
    intros p x y Hp. pose proof ab_neq as NQ. pose proof ab_cand_start as CS. pose proof ab_v_end as VE.
    destruct (path_cases p Hp) as [O|[l1 [ts [t [l2 T]]]]].
    - rewrite (fuse_off p O). destruct O as [O1 O2].
      assert (NC : forall z, ~ In (cand, z) (pairs (chain p))).
      { intros z C. apply in_pairs_l in C. unfold chain in C. destruct C as [C|C]; [congruence|].
        apply in_app_or in C as [C|[C|[]]]; congruence. }
      assert (NV : forall z, ~ In (v, z) (pairs (chain p))).
      { intros z C. apply in_pairs_l in C. unfold chain in C. destruct C as [C|C]; [congruence|].
        apply in_app_or in C as [C|[C|[]]]; congruence. }
      destruct (x =? v) eqn:E.
      + apply Nat.eqb_eq in E. subst x. split; intro C; exfalso; [apply (NV y C)|apply (NC y C)].
      + split; [|tauto]. intro C. split; auto. intros ->. apply (NC y C).
    - rewrite (fuse_through _ _ _ _ _ T). destruct T as [E [A [B [C D]]]].
      set (L := v_start :: map fst l1). set (R := map fst l2 ++ [v_end]).
      assert (E1 : chain p = L ++ v :: cand :: R).
      { unfold chain, L, R. rewrite E, map_app. simpl. rewrite <- app_assoc. reflexivity. }
      assert (E2 : chain (fst p, l1 ++ (v, ts ++ [t]) :: l2) = L ++ v :: R).
      { unfold chain, L, R. simpl. rewrite map_app. simpl. rewrite <- app_assoc. reflexivity. }
      rewrite E1, E2, (pairs_app L R v), (pairs_app L (cand :: R) v), pairs_cons.
      assert (NR : exists b r, R = b :: r) by (unfold R; destruct (map fst l2); simpl; eauto).
      assert (VR : ~ In v R) by (unfold R; intro X; apply in_app_or in X as [X|[X|[]]]; congruence).
      assert (CR : ~ In cand R) by (unfold R; intro X; apply in_app_or in X as [X|[X|[]]]; congruence).
      assert (VL : ~ In v L) by (unfold L; intros [X|X]; congruence).
      assert (CL : ~ In cand L) by (unfold L; intros [X|X]; congruence).
      destruct NR as [b [r ER]]. rewrite ER in *. rewrite !pairs_cons.
      assert (PL : forall a z, In (a, z) (pairs (L ++ [v])) -> In a L).
      { intros a z X. apply pairs_In in X as [q1 [q2 X]].
        destruct (exists_last (l := z :: q2)) as [q3 [y0 E3]]; [discriminate|]. rewrite E3 in X.
        change (q1 ++ a :: q3 ++ [y0]) with (q1 ++ (a :: q3) ++ [y0]) in X. rewrite app_assoc in X.
        apply app_inj_tail in X as [X _]. rewrite X. apply in_or_app. right. left. reflexivity. }
      assert (PR : forall a z, In (a, z) (pairs (b :: r)) -> In a (b :: r)) by (intros a z X; eapply in_pairs_l; eauto).
      destruct (x =? v) eqn:EX.
      + apply Nat.eqb_eq in EX. subst x. rewrite !in_app_iff. cbn [In]. split.
        * intros [X|[X|X]].
          -- exfalso. apply PL in X. contradiction.
          -- injection X as <-. auto.
          -- exfalso. apply PR in X. contradiction.
        * intros [X|[X|[X|X]]].
          -- exfalso. apply PL in X. contradiction.
          -- congruence.
          -- injection X as <-. auto.
          -- exfalso. apply PR in X. contradiction.
      + apply Nat.eqb_neq in EX. rewrite !in_app_iff. cbn [In]. split.
        * intros [X|[X|X]].
          -- split; auto. intros ->. apply PL in X. contradiction.
          -- congruence.
          -- split; auto. intros ->. apply PR in X. contradiction.
        * intros [N [X|[X|[X|X]]]]; auto; congruence.
  Qed.

  Lemma users_W' : forall x y, users W' (x, y) = if x =? v then users W (cand, y) else if x =? cand then [] else users W (x, y).
  Proof.
    intros x y. unfold users, W'.
    assert (G : forall L, (forall p, In p L -> In p W) ->
      map fst (filter (fun p => existsb (edge_eqb (x, y)) (pairs (chain p))) (map (fuse_path v) L)) =
      if x =? v then map fst (filter (fun p => existsb (edge_eqb (cand, y)) (pairs (chain p))) L)
      else if x =? cand then [] else map fst (filter (fun p => existsb (edge_eqb (x, y)) (pairs (chain p))) L)).
    { induction L as [|p L IH]; intros HL; [simpl; destruct (x =? v), (x =? cand); reflexivity|].
      cbn [map filter]. pose proof (fuse_pairs p x y (HL p (or_introl eq_refl))) as F.
      assert (IH' := IH (fun q Hq => HL q (or_intror Hq))). clear IH.
      destruct (existsb (edge_eqb (x, y)) (pairs (chain (fuse_path v p)))) eqn:E.
      - apply (existsb_eqb _ edge_eqb_ok) in E. apply F in E. cbn [map]. rewrite IH'. destruct (x =? v).
        + apply (existsb_eqb _ edge_eqb_ok) in E. rewrite E. reflexivity.
        + destruct E as [E1 E2]. apply Nat.eqb_neq in E1. rewrite E1. apply (existsb_eqb _ edge_eqb_ok) in E2. rewrite E2. reflexivity.
      - rewrite IH'. assert (NE : ~ In (x, y) (pairs (chain (fuse_path v p)))).
        { intro C. apply (existsb_eqb _ edge_eqb_ok) in C. congruence. }
        rewrite F in NE. destruct (x =? v).
        + destruct (existsb (edge_eqb (cand, y)) (pairs (chain p))) eqn:Q; auto.
          apply (existsb_eqb _ edge_eqb_ok) in Q. contradiction.
        + destruct (x =? cand) eqn:EC; auto. apply Nat.eqb_neq in EC.
          destruct (existsb (edge_eqb (x, y)) (pairs (chain p))) eqn:Q; auto.
          apply (existsb_eqb _ edge_eqb_ok) in Q. exfalso. apply NE. auto. }
    apply G. auto.
  Qed.

  (** Tokens. *)
  Lemma fuse_get : forall p w, In p W -> w <> v -> w <> cand ->
    dget Nat.eqb w (fuse v (snd p)) = dget Nat.eqb w (snd p).
  Proof.
    intros p w Hp N1 N2. destruct (path_cases p Hp) as [O|[l1 [ts [t [l2 T]]]]].
    - pose proof (fuse_off p O) as E. unfold fuse_path in E. apply (f_equal snd) in E. simpl in E. rewrite E. reflexivity.
    - pose proof (fuse_through _ _ _ _ _ T) as E. unfold fuse_path in E. apply (f_equal snd) in E. simpl in E. rewrite E.
      destruct T as [E' _]. rewrite E', !(dget_app _). destruct (dget Nat.eqb w l1); auto. cbn [dget].
      rewrite (proj2 (Nat.eqb_neq w v) N1), (proj2 (Nat.eqb_neq w cand) N2). reflexivity.
  Qed.

  Lemma tokens_W'_other : forall w, w <> v -> w <> cand -> tokens_on W' w = tokens_on W w.
  Proof.
    intros w N1 N2. unfold tokens_on, W'. rewrite flat_map_concat_map, map_map, <- flat_map_concat_map.
    apply flat_map_ext_In. intros p Hp. simpl. rewrite fuse_get by assumption. reflexivity.
  Qed.

  (** Witness, its tokens on [v] and its token on [cand]. *)
  Definition triple (p : wpath) : list (str * list token * token) :=
    match dget Nat.eqb v (snd p), dget Nat.eqb cand (snd p) with
    | Some ts, Some (t :: _) => [((fst p, ts), t)]
    | _, _ => []
    end.

  Lemma triple_spec : forall p, In p W ->
    (match dget Nat.eqb v (snd p) with Some ts => [(fst p, ts)] | None => [] end = map fst (triple p)) /\
    (match dget Nat.eqb cand (snd p) with Some ts => [(fst p, ts)] | None => [] end =
       map (fun x => (fst (fst x), [snd x])) (triple p)) /\
    (match dget Nat.eqb v (fuse v (snd p)) with Some ts => [(fst p, ts)] | None => [] end =
       map (fun x => (fst (fst x), snd (fst x) ++ [snd x])) (triple p)).
  Proof.
    intros p Hp. pose proof ab_neq as NQ. unfold triple. destruct (path_cases p Hp) as [O|[l1 [ts [t [l2 T]]]]].
    - pose proof (fuse_off p O) as E. unfold fuse_path in E. apply (f_equal snd) in E. simpl in E. rewrite E.
      destruct O as [O1 O2]. rewrite (proj2 (dget_None _ nat_eqb_ok v _) O1), (proj2 (dget_None _ nat_eqb_ok cand _) O2). auto.
    - pose proof (fuse_through _ _ _ _ _ T) as E. unfold fuse_path in E. apply (f_equal snd) in E. simpl in E. rewrite E.
      destruct T as [E' [A [B _]]]. rewrite E', !(dget_app _).
      rewrite (proj2 (dget_None _ nat_eqb_ok v l1) A), (proj2 (dget_None _ nat_eqb_ok cand l1) B). cbn [dget].
      rewrite !Nat.eqb_refl. rewrite (proj2 (Nat.eqb_neq cand v)) by auto. auto.
  Qed.

  Definition triples : list (str * list token * token) := flat_map triple W.

  Lemma flat_map_map_in : forall {A B C} (f : A -> list C) (h : A -> list B) (k : B -> C) l,
    (forall a, In a l -> f a = map k (h a)) -> flat_map f l = map k (flat_map h l).
  Proof.
    induction l as [|a l IH]; intros H; auto. simpl. rewrite map_app, H by (left; reflexivity). f_equal.
    apply IH. intros. apply H. right. assumption.
  Qed.

  Lemma tokens_v : tokens_on W v = map fst triples.
  Proof. apply flat_map_map_in. intros p Hp. apply (proj1 (triple_spec p Hp)). Qed.
  Lemma tokens_cand : tokens_on W cand = map (fun x => (fst (fst x), [snd x])) triples.
  Proof. unfold tokens_on, triples. apply flat_map_map_in. intros p Hp. apply (proj1 (proj2 (triple_spec p Hp))). Qed.
  Lemma tokens_W'_v : tokens_on W' v = map (fun x => (fst (fst x), snd (fst x) ++ [snd x])) triples.
  Proof.
    unfold tokens_on, W', triples. rewrite flat_map_concat_map, map_map, <- flat_map_concat_map.
    apply flat_map_map_in. intros p Hp. apply (proj2 (proj2 (triple_spec p Hp))).
  Qed.
  Lemma triples_nodup : NoDup (map (fun x => fst (fst x)) triples).
  Proof.
    rewrite <- (map_map fst fst). rewrite <- tokens_v. pose proof (gi_sigla _ _ GI) as N. clear - N. unfold tokens_on.
    induction W as [|a l IH]; simpl; [constructor|]. simpl in N. inversion N; subst.
    rewrite map_app. destruct (dget Nat.eqb v (snd a)); simpl; auto.
    constructor; auto. intro C. apply H1. apply tokens_on_sigla with v. assumption.
  Qed.

  Lemma add_tokens : forall lbl (L : list (str * list token * token)) pre,
    NoDup (map (fun x => fst (fst x)) L) -> (forall x, In x (map (fun x => fst (fst x)) L) -> ~ In x (map fst pre)) ->
    foldM (fun vx '(sg, ts) => t <- aget ts 0 ;; Ok (vertex_add_token vx sg t))
      (map (fun x => (fst (fst x), [snd x])) L) {| v_label := lbl; v_tokens := pre ++ map fst L |} =
    Ok {| v_label := lbl; v_tokens := pre ++ map (fun x => (fst (fst x), snd (fst x) ++ [snd x])) L |}.
  Proof.
    intros lbl. induction L as [|[[sg ts] t] L IH]; intros pre N D; [reflexivity|].
    cbn [map fst snd foldM]. unfold aget at 1. cbn [nth_error bind]. unfold vertex_add_token. cbn [v_tokens v_label].
    simpl in N. inversion N; subst.
    assert (P : ~ In sg (map fst pre)) by (apply D; left; reflexivity).
    rewrite (dget_app _), (proj2 (dget_None _ str_eqb_ok sg pre) P). cbn [dget]. rewrite str_eqb_refl.
    assert (E : forall x q r, ~ In sg (map fst q) -> dset str_eqb sg x (q ++ (sg, ts) :: r) = q ++ (sg, x) :: r).
    { intros x. induction q as [|[k u] q IHq]; intros r NI; cbn [app dset].
      - rewrite str_eqb_refl. reflexivity.
      - simpl in NI. rewrite (proj2 (str_eqb_neq sg k)) by auto. f_equal. apply IHq. auto. }
    rewrite E by assumption.
    replace (pre ++ (sg, ts ++ [t]) :: map fst L) with ((pre ++ [(sg, ts ++ [t])]) ++ map fst L) by (rewrite <- app_assoc; reflexivity).
    rewrite IH.
    - rewrite <- app_assoc. reflexivity.
    - assumption.
    - intros x Hx C. rewrite map_app in C. apply in_app_or in C as [C|[<-|[]]]; [|contradiction].
      apply (D x); [right; assumption|assumption].
  Qed.

  (** The loop moving the out edges of [cand]. *)
  Definition move (g : graph) (e : vid * vid * str) : res graph :=
    g' <- remove_edge g cand (snd (fst e)) ;; Ok (connect g' v (snd (fst e)) (snd e)).

  Lemma move_spec : forall es g1, NoDup (map fst es) -> NoDup (edge_pairs g1) ->
    (forall e, In e es -> fst (fst e) = cand /\ dget edge_eqb (fst e) (g_edges g1) = Some (snd e) /\
       dget edge_eqb (v, snd (fst e)) (g_edges g1) = None) ->
    exists g2, foldM move es g1 = Ok g2 /\ g_verts g2 = g_verts g1 /\ g_near g2 = g_near g1 /\ g_next g2 = g_next g1 /\
      NoDup (edge_pairs g2) /\
      forall x y, dget edge_eqb (x, y) (g_edges g2) =
        if (x =? v) && existsb (edge_eqb (cand, y)) (map fst es) then dget edge_eqb (cand, y) es
        else if (x =? cand) && existsb (edge_eqb (cand, y)) (map fst es) then None
        else dget edge_eqb (x, y) (g_edges g1).
  Proof.
    pose proof ab_neq as NQ.
    induction es as [|[[a w] l] es IH]; intros g1 ND N HE.
    - exists g1. split; [reflexivity|]. repeat (split; [auto|]). intros x y. simpl. rewrite !andb_false_r. reflexivity.
    - destruct (HE _ (or_introl eq_refl)) as [A [B C]]. cbn [fst snd] in A, B, C. subst a.
      simpl in ND. inversion ND as [|? ? NI ND']; subst.
      set (g2 := {| g_verts := g_verts g1; g_edges := ddel edge_eqb (cand, w) (g_edges g1); g_near := g_near g1; g_next := g_next g1 |}).
      assert (RE : remove_edge g1 cand w = Ok g2).
      { unfold remove_edge. unfold dmem. rewrite B. reflexivity. }
      assert (GE : forall x y, dget edge_eqb (x, y) (g_edges (connect g2 v w l)) =
        if edge_eqb (v, w) (x, y) then Some l else if edge_eqb (cand, w) (x, y) then None else dget edge_eqb (x, y) (g_edges g1)).
      { intros x y. rewrite connect_edges, conn_get. cbn [g_edges g2].
        rewrite !(dget_ddel _ edge_eqb_ok) by exact N. rewrite C. 
        assert (Q : edge_eqb (cand, w) (v, w) = false) by (apply (eqb_neq _ edge_eqb_ok); intro X; injection X; auto).
        rewrite Q. reflexivity. }
      destruct (IH (connect g2 v w l)) as [g3 [E1 [E2 [E3 [E4 [E5 E6]]]]]].
      + assumption.
      + unfold edge_pairs. rewrite connect_edges. apply conn_NoDup. cbn [g_edges g2]. apply (ddel_NoDup _ edge_eqb_ok). exact N.
      + intros [[a w'] l'] He. destruct (HE _ (or_intror He)) as [A' [B' C']]. cbn [fst snd] in *. subst a.
        assert (NW : w' <> w). { intros ->. apply NI. apply (in_map fst) in He. assumption. }
        split; [reflexivity|]. rewrite !GE.
        rewrite !(eqb_neq _ edge_eqb_ok) by (intro X; injection X; congruence). auto.
      + exists g3. split.
        { cbn [foldM]. unfold move at 1. cbn [fst snd]. rewrite RE. cbn [bind]. exact E1. }
        split; [exact E2|]. split; [exact E3|]. split; [exact E4|]. split; [exact E5|].
        intros x y. rewrite E6, GE. cbn [map fst existsb dget].
        destruct (edge_eqb (cand, y) (cand, w)) eqn:Q.
        * apply edge_eqb_ok in Q. injection Q as ->. cbn [orb]. rewrite !andb_true_r.
          assert (Q2 : existsb (edge_eqb (cand, w)) (map fst es) = false).
          { destruct (existsb (edge_eqb (cand, w)) (map fst es)) eqn:Z; auto. apply (existsb_eqb _ edge_eqb_ok) in Z. contradiction. }
          rewrite Q2, !andb_false_r. unfold edge_eqb. cbn [fst snd]. rewrite Nat.eqb_refl, !andb_true_r.
          rewrite (Nat.eqb_sym v x), (Nat.eqb_sym cand x). reflexivity.
        * cbn [orb]. destruct (existsb (edge_eqb (cand, y)) (map fst es)) eqn:Z.
          -- rewrite !andb_true_r. destruct (x =? v); auto. destruct (x =? cand) eqn:XC; auto.
             assert (NW : y <> w) by (intros ->; rewrite (eqb_refl' _ edge_eqb_ok) in Q; discriminate).
             rewrite !(eqb_neq _ edge_eqb_ok) by (intro X; injection X; congruence). reflexivity.
          -- rewrite !andb_false_r.
             assert (NW : y <> w) by (intros ->; rewrite (eqb_refl' _ edge_eqb_ok) in Q; discriminate).
             rewrite !(eqb_neq _ edge_eqb_ok) by (intro X; injection X; congruence). reflexivity.
  Qed.

  Lemma dget_filter : forall (f : vid * vid -> bool) (es : list (vid * vid * str)) e,
    dget edge_eqb e (filter (fun x => f (fst x)) es) = if f e then dget edge_eqb e es else None.
  Proof.
    induction es as [|[k l] es IH]; intros e; cbn [filter].
    - destruct (f e); reflexivity.
    - cbn [fst]. destruct (f k) eqn:F; cbn [dget].
      + destruct (edge_eqb e k) eqn:Q; [apply edge_eqb_ok in Q; subst; rewrite F; reflexivity|apply IH].
      + rewrite IH. destruct (edge_eqb e k) eqn:Q; auto. apply edge_eqb_ok in Q. subst. rewrite F. reflexivity.
  Qed.

  Theorem absorb_spec : exists g', absorb cc g cand v = Ok g' /\ graph_of g' W' /\
    (forall x, In x (vertices g') <-> In x (vertices g) /\ x <> cand) /\
    (forall x y, edge g' x y <-> if x =? v then edge g cand y else x <> cand /\ edge g x y) /\
    (forall x vx', dget Nat.eqb x (g_verts g') = Some vx' -> exists vx, dget Nat.eqb x (g_verts g) = Some vx /\
       if x =? v then exists cx, dget Nat.eqb cand (g_verts g) = Some cx /\ v_label vx' = join_labels cc (v_label vx) (v_label cx)
       else v_label vx' = v_label vx).
  Proof.
    pose proof ab_neq as NQ. pose proof ab_cand_start as CS. pose proof ab_v_end as VE. destruct ab_verts as [V1 V2].
    destruct (dget_Some_key _ nat_eqb_ok v (g_verts g) V1) as [vx Dv].
    destruct (dget_Some_key _ nat_eqb_ok cand (g_verts g) V2) as [cx Dc].
    set (vx' := {| v_label := join_labels cc (v_label vx) (v_label cx); v_tokens := tokens_on W' v |}).
    assert (JV : join_vertices cc g cand v = Ok (update_vertex g v vx')).
    { unfold join_vertices, get_vertex, dgetE. rewrite Dv, Dc. cbn [bind].
      rewrite (gi_tokens _ _ GI v vx Dv), (gi_tokens _ _ GI cand cx Dc), tokens_v, tokens_cand.
      rewrite (add_tokens _ triples []); [|apply triples_nodup|intros ? _ []]. cbn [bind app].
      unfold vx'. rewrite tokens_W'_v. reflexivity. }
    unfold absorb. rewrite JV. cbn [bind].
    set (g1 := update_vertex g v vx') in *.
    assert (O1 : out_edges g1 cand = out_edges g cand) by reflexivity.
    destruct (move_spec (out_edges g cand) g1) as [g2 [E1 [E2 [E3 [E4 [E5 E6]]]]]].
    { apply NoDup_map_filter. apply (gi_edges_nodup _ _ GI). }
    { apply (gi_edges_nodup _ _ GI). }
    { intros [[a w] l] He. apply out_edges_In in He as [He Q]. cbn [fst snd] in *. subst a. split; auto.
      cbn [g_edges g1 update_vertex]. split.
      - apply (In_dget _ edge_eqb_ok); auto. apply (gi_edges_nodup _ _ GI).
      - destruct (dget edge_eqb (v, w) (g_edges g)) as [l'|] eqn:D; auto. exfalso.
        apply (dget_In _ edge_eqb_ok) in D. assert (X : edge g v w) by (apply edge_In; eauto). apply H1 in X. subst w.
        assert (Y : edge g cand cand) by (apply edge_In; eauto). apply H2 in Y. congruence. }
    rewrite O1. change (foldM _ (out_edges g cand) g1) with (foldM move (out_edges g cand) g1). rewrite E1. cbn [bind].
    (* labels of the out edges of cand *)
    assert (OC : forall y, dget edge_eqb (cand, y) (out_edges g cand) = dget edge_eqb (cand, y) (g_edges g)).
    { intros y. unfold out_edges. rewrite (dget_filter (fun e => fst e =? cand)). cbn [fst]. rewrite Nat.eqb_refl. reflexivity. }
    assert (OE : forall y, existsb (edge_eqb (cand, y)) (map fst (out_edges g cand)) =
                           match dget edge_eqb (cand, y) (g_edges g) with Some _ => true | None => false end).
    { intros y. destruct (dget edge_eqb (cand, y) (g_edges g)) as [l|] eqn:D.
      - rewrite <- OC in D. apply (dget_In _ edge_eqb_ok) in D. apply (in_map fst) in D. apply (existsb_eqb _ edge_eqb_ok). assumption.
      - rewrite <- OC in D. apply (dget_None _ edge_eqb_ok) in D.
        destruct (existsb _ _) eqn:Q; auto. apply (existsb_eqb _ edge_eqb_ok) in Q. contradiction. }
    assert (CC : dget edge_eqb (cand, cand) (g_edges g) = None).
    { destruct (dget edge_eqb (cand, cand) (g_edges g)) as [l|] eqn:D; auto. exfalso.
      apply (dget_In _ edge_eqb_ok) in D. assert (Y : edge g cand cand) by (apply edge_In; eauto). apply H2 in Y. congruence. }
    assert (VC : exists l, dget edge_eqb (v, cand) (g_edges g) = Some l).
    { apply (dget_Some_key _ edge_eqb_ok). apply ab_edge. }
    destruct VC as [lvc VC].
    assert (M : dmem edge_eqb (v, cand) (g_edges g2) = true).
    { unfold dmem. rewrite E6, OE, CC, !andb_false_r. cbn [g_edges g1 update_vertex]. rewrite VC. reflexivity. }
    unfold remove_edge. rewrite M. cbn [bind]. unfold remove_node. cbn [g_verts g_edges g_near g_next].
    assert (GV : g_verts g2 = dset Nat.eqb v vx' (g_verts g)) by (rewrite E2; reflexivity).
    assert (M2 : dmem Nat.eqb cand (g_verts g2) = true).
    { apply (dmem_In _ nat_eqb_ok). rewrite GV. apply (dset_In_key _ nat_eqb_ok). right. assumption. }
    rewrite M2. eexists. split; [reflexivity|].
    set (g' := {| g_verts := ddel Nat.eqb cand (g_verts g2); g_edges := _; g_near := _; g_next := _ |}).
    assert (NV : NoDup (map fst (g_verts g2))) by (rewrite GV; apply (dset_NoDup _ nat_eqb_ok); apply (gi_verts _ _ GI)).
    assert (IV : forall x, In x (vertices g') <-> In x (vertices g) /\ x <> cand).
    { intros x. unfold vertices. cbn [g_verts g']. rewrite (ddel_In _ nat_eqb_ok) by exact NV.
      rewrite GV, (dset_In_key _ nat_eqb_ok). split.
      - intros [A [->|B]]; auto.
      - intros [A B]. auto. }
    assert (DV : forall x, dget Nat.eqb x (g_verts g') = if x =? cand then None else if x =? v then Some vx' else dget Nat.eqb x (g_verts g)).
    { intros x. cbn [g_verts g']. rewrite (dget_ddel _ nat_eqb_ok) by exact NV.
      rewrite (Nat.eqb_sym cand x). destruct (x =? cand); auto. rewrite GV, (dget_set _ nat_eqb_ok), (Nat.eqb_sym v x). reflexivity. }
    assert (DE : forall x y, dget edge_eqb (x, y) (g_edges g') =
      if x =? v then dget edge_eqb (cand, y) (g_edges g) else if x =? cand then None else dget edge_eqb (x, y) (g_edges g)).
    { intros x y. cbn [g_edges g'].
      rewrite (dget_filter (fun e => negb (fst e =? cand) && negb (snd e =? cand))). cbn [fst snd].
      rewrite (dget_ddel _ edge_eqb_ok) by exact E5. rewrite E6, OC, OE. cbn [g_edges g1 update_vertex].
      destruct (x =? v) eqn:XV.
      - apply Nat.eqb_eq in XV. subst x. rewrite (proj2 (Nat.eqb_neq v cand) NQ). cbn [negb andb].
        destruct (y =? cand) eqn:YC; cbn [negb].
        + apply Nat.eqb_eq in YC. subst y. rewrite CC. reflexivity.
        + apply Nat.eqb_neq in YC. rewrite (eqb_neq _ edge_eqb_ok) by (intro X; injection X; congruence).
          destruct (dget edge_eqb (cand, y) (g_edges g)) as [l|] eqn:D; auto.
          destruct (dget edge_eqb (v, y) (g_edges g)) as [l|] eqn:D'; auto.
          exfalso. apply (dget_In _ edge_eqb_ok) in D'. assert (X : edge g v y) by (apply edge_In; eauto). apply H1 in X. congruence.
      - destruct (x =? cand) eqn:XC; cbn [negb andb]; auto.
        apply Nat.eqb_neq in XV, XC. rewrite (eqb_neq _ edge_eqb_ok) by (intro X; injection X; congruence).
        destruct (y =? cand) eqn:YC; cbn [negb]; auto.
        apply Nat.eqb_eq in YC. subst y. destruct (dget edge_eqb (x, cand) (g_edges g)) as [l|] eqn:D; auto.
        exfalso. apply (dget_In _ edge_eqb_ok) in D. assert (X : edge g x cand) by (apply edge_In; eauto). apply H2 in X. congruence. }
    assert (EDGE : forall x y, edge g' x y <-> if x =? v then edge g cand y else x <> cand /\ edge g x y).
    { assert (ED : forall gg x y, edge gg x y <-> dget edge_eqb (x, y) (g_edges gg) <> None).
      { intros gg x y. unfold edge, edge_pairs. split.
        - intros I C. apply (dget_None _ edge_eqb_ok) in C. contradiction.
        - intros I. destruct (dget edge_eqb (x, y) (g_edges gg)) eqn:D; [|congruence].
          apply (dget_In _ edge_eqb_ok) in D. apply (in_map fst) in D. assumption. }
      intros x y. rewrite (ED g' x y), DE. destruct (x =? v); [rewrite (ED g cand y); reflexivity|].
      destruct (x =? cand) eqn:XC.
      - apply Nat.eqb_eq in XC. split; [congruence|]. intros [A _]. congruence.
      - apply Nat.eqb_neq in XC. rewrite (ED g x y). tauto. }
    split; [|split; [exact IV|split; [exact EDGE|]]].
    2:{ intros x vxx D. rewrite DV in D. destruct (x =? cand) eqn:XC; [discriminate|]. destruct (x =? v) eqn:XV.
        - apply Nat.eqb_eq in XV. subst x. injection D as <-. exists vx. split; auto. exists cx. split; auto.
        - exists vxx. auto. }
    constructor.
    - rewrite W'_sigla. apply (gi_sigla _ _ GI).
    - rewrite W'_sigla. apply (gi_siglum _ _ GI).
    - unfold vertices. cbn [g_verts g']. apply (ddel_NoDup _ nat_eqb_ok). exact NV.
    - intros x Hx. cbn [g_next g']. rewrite E4. cbn [g_next g1 update_vertex]. apply IV in Hx as [Hx _]. apply (gi_bound _ _ GI). assumption.
    - rewrite DV. rewrite (proj2 (Nat.eqb_neq v_start cand)), (proj2 (Nat.eqb_neq v_start v)) by auto. apply (gi_start _ _ GI).
    - rewrite DV. rewrite (proj2 (Nat.eqb_neq v_end cand)), (proj2 (Nat.eqb_neq v_end v)) by auto. apply (gi_end _ _ GI).
    - intros p' Hp'. apply W'_In in Hp' as [p [Hp ->]]. pose proof (gi_simple _ _ GI p Hp) as N.
      destruct (path_cases p Hp) as [O|[l1 [ts [t [l2 T]]]]]; [rewrite (fuse_off p O); assumption|].
      rewrite (fuse_through _ _ _ _ _ T). destruct T as [E _]. unfold chain in *. rewrite E, map_app in N. simpl in N. cbn [snd].
      rewrite map_app. cbn [map fst]. rewrite <- app_assoc in *. simpl in *.
      change (v_start :: map fst l1 ++ v :: cand :: map fst l2 ++ [v_end]) with ((v_start :: map fst l1) ++ v :: cand :: map fst l2 ++ [v_end]) in N.
      change (v_start :: map fst l1 ++ v :: map fst l2 ++ [v_end]) with ((v_start :: map fst l1) ++ v :: map fst l2 ++ [v_end]).
      replace ((v_start :: map fst l1) ++ v :: cand :: map fst l2 ++ [v_end]) with (((v_start :: map fst l1) ++ [v]) ++ cand :: map fst l2 ++ [v_end]) in N
        by (rewrite <- app_assoc; reflexivity).
      apply NoDup_remove_1 in N. rewrite <- app_assoc in N. exact N.
    - intros p' w ts Hp' Hw. apply W'_In in Hp' as [p [Hp ->]]. rewrite IV.
      destruct (path_cases p Hp) as [O|[l1 [ts1 [t [l2 T]]]]].
      + rewrite (fuse_off p O) in Hw. destruct (gi_on _ _ GI p w ts Hp Hw) as [A B]. split; auto. split; auto.
        intros ->. apply (proj2 O). apply (in_map fst) in Hw. assumption.
      + rewrite (fuse_through _ _ _ _ _ T) in Hw. cbn [snd] in Hw. destruct T as [E [A [B [C D]]]].
        apply in_app_or in Hw as [Hw|[Hw|Hw]].
        * destruct (gi_on _ _ GI p w ts Hp) as [X Y]; [rewrite E; apply in_or_app; auto|]. split; auto. split; auto.
          intros ->. apply B. apply (in_map fst) in Hw. assumption.
        * injection Hw as <- <-. split; [auto|]. destruct ts1; discriminate.
        * destruct (gi_on _ _ GI p w ts Hp) as [X Y]; [rewrite E; apply in_or_app; right; right; right; auto|]. split; auto. split; auto.
          intros ->. apply D. apply (in_map fst) in Hw. assumption.
    - intros w Hw. apply IV in Hw as [Hw NW]. destruct (gi_cover _ _ GI w Hw) as [->|[->|[p [ts [Hp I]]]]]; auto.
      right. right. exists (fuse_path v p). destruct (path_cases p Hp) as [O|[l1 [ts1 [t [l2 T]]]]].
      + exists ts. split; [apply W'_In; eauto|]. rewrite (fuse_off p O). assumption.
      + rewrite (fuse_through _ _ _ _ _ T). cbn [snd].
        assert (X : exists ts', In (w, ts') (l1 ++ (v, ts1 ++ [t]) :: l2)).
        { destruct T as [E _]. rewrite E in I. apply in_app_or in I as [I|[I|[I|I]]].
          - exists ts. apply in_or_app. auto.
          - injection I as <- <-. exists (ts1 ++ [t]). apply in_or_app. right. left. reflexivity.
          - congruence.
          - exists ts. apply in_or_app. right. right. assumption. }
        destruct X as [ts' X]. exists ts'. split; auto. apply W'_In. exists p. split; auto. symmetry. apply (fuse_through _ _ _ _ _ T).
    - intros w wx D. rewrite DV in D. destruct (w =? cand) eqn:WC; [discriminate|]. destruct (w =? v) eqn:WV.
      + apply Nat.eqb_eq in WV. subst w. injection D as <-. reflexivity.
      + apply Nat.eqb_neq in WC, WV. rewrite tokens_W'_other by assumption. apply (gi_tokens _ _ GI). assumption.
    - unfold edge_pairs. cbn [g_edges g']. apply NoDup_map_filter. apply (ddel_NoDup _ edge_eqb_ok). exact E5.
    - intros [x y]. rewrite DE, users_W'. destruct (x =? v); [apply (gi_edges _ _ GI)|].
      destruct (x =? cand); [reflexivity|apply (gi_edges _ _ GI)].
    - intros x C. apply (gi_acyclic _ _ GI x).
      assert (G : forall a b, clos_trans vid (edge g') a b -> clos_trans vid (edge g) a b).
      { induction 1 as [a b E|a b c0 _ IH1 _ IH2].
        - apply EDGE in E. destruct (a =? v) eqn:AV.
          + apply Nat.eqb_eq in AV. subst a. apply t_trans with cand; apply t_step; [apply ab_edge|assumption].
          + apply t_step. tauto.
        - apply t_trans with b; assumption. }
      apply G. assumption.
    - cbn [g_near g']. rewrite E3. apply (gi_near _ _ GI).
  Qed.
End Absorb.

(** ** The loop *)
Lemma combine_app : forall {A B} (l1 l2 : list A) (m1 m2 : list B), length l1 = length m1 ->
  combine (l1 ++ l2) (m1 ++ m2) = combine l1 m1 ++ combine l2 m2.
Proof. induction l1 as [|a l1 IH]; intros l2 [|b m1] m2 H; try discriminate; [reflexivity|]. cbn. f_equal. apply IH. injection H; auto. Qed.

Lemma filter_length_le : forall {A} (f : A -> bool) l, length (filter f l) <= length l.
Proof. induction l; cbn; auto. destruct (f a); cbn; lia. Qed.

Section Loop.
  Variables (cc : cclass) (g0 : graph) (W0 : list wpath).

  (** [x] has been reached. *)
  Record jinv (g : graph) (W : list wpath) (part : vid -> list vid) (queue processed : list vid) : Prop := {
    ji_joined : joined cc g0 W0 g W part;
    ji_seen : forall x, In x queue \/ In x processed -> In x (vertices g) /\ x <> v_start /\
      (edge g v_start x \/ exists u, In u processed /\ edge g u x);
    ji_done : forall u c, In u processed -> ~ joinable g u c;
    ji_next : forall u x, In u processed -> edge g u x -> In x processed \/ In x queue;
    ji_stack : forall q1 u q2 x, queue = q1 ++ u :: q2 -> In u processed -> edge g u x -> In x processed \/ In x q1;
    ji_start : forall x, edge g v_start x -> In x processed \/ In x queue;
    ji_fresh : forall x, In x (vertices g) -> ~ In x queue -> ~ In x processed -> part x = [x]
  }.

  Definition todo (g : graph) (processed : list vid) : list (vid * vid) :=
    filter (fun e => negb (existsb (Nat.eqb (fst e)) processed)) (edge_pairs g).

  Lemma last_snoc : forall {A} (l : list A) x d, last (l ++ [x]) d = x.
  Proof. intros. apply last_last. Qed.

  (** Absorbing keeps the relation to the original graph. *)
  Lemma joined_step : forall g W part v cand, joined cc g0 W0 g W part -> joinable g v cand -> part cand = [cand] ->
    exists g', absorb cc g cand v = Ok g' /\
      (forall x, In x (vertices g') <-> In x (vertices g) /\ x <> cand) /\
      (forall x y, edge g' x y <-> if x =? v then edge g cand y else x <> cand /\ edge g x y) /\
      joined cc g0 W0 g' (W' W v) (fun x => if x =? v then part v ++ [cand] else part x).
  Proof.
    intros g W part v cand JO [Jv [Jc [J1 J2]]] PC. pose proof (jo_graph _ _ _ _ _ _ JO) as GI.
    assert (SING : forall p ts, In p W -> In (cand, ts) (snd p) -> exists t, ts = [t]).
    { intros p ts Hp Hi. pose proof (jo_paths _ _ _ _ _ _ JO) as F.
      assert (X : exists p0, fst p0 = fst p /\ snd p0 = unfold_path part (snd p) /\ forall v ts, In (v, ts) (snd p) -> length ts = length (part v)).
      { clear - F Hp. induction F; [contradiction|]. destruct Hp as [->|Hp]; eauto. }
      destruct X as [p0 [_ [_ X]]]. specialize (X _ _ Hi). rewrite PC in X. destruct ts as [|t [|? ?]]; try discriminate. eauto. }
    pose proof (ab_neq g W v cand GI J1) as NQ. destruct (ab_verts g W v cand GI J1) as [V1 V2].
    pose proof (ab_v_end g W v cand GI J1) as VE. pose proof (ab_cand_start g W v cand GI J1) as CS.
    destruct (absorb_spec cc g W v cand GI J1 J2 Jc Jv SING) as [g' [A1 [A2 [A3 [A4 A5]]]]].
    exists g'. split; [exact A1|]. split; [exact A3|]. split; [exact A4|].
    assert (NEV : forall x, x <> v -> (x =? v) = false) by (intros; apply Nat.eqb_neq; assumption).
    constructor.
    - exact A2.
    - pose proof (jo_paths _ _ _ _ _ _ JO) as F. unfold W'.
      assert (G : forall L0 L, Forall2 (fun p0 p => fst p0 = fst p /\ snd p0 = unfold_path part (snd p) /\
                        forall v ts, In (v, ts) (snd p) -> length ts = length (part v)) L0 L -> (forall p, In p L -> In p W) ->
        Forall2 (fun p0 p => fst p0 = fst p /\ snd p0 = unfold_path (fun x => if x =? v then part v ++ [cand] else part x) (snd p) /\
                        forall v0 ts, In (v0, ts) (snd p) -> length ts = length (if v0 =? v then part v ++ [cand] else part v0)) L0 (map (fuse_path v) L)).
      { intros L0 L FF. induction FF as [|p0 p L0 L [E1 [E2 E3]] FF IH]; intros HL; [constructor|].
        cbn [map]. constructor; [|apply IH; intros; apply HL; right; assumption].
        split; [exact E1|].
        assert (EXT : forall s, ~ In v (map fst s) -> unfold_path (fun x => if x =? v then part v ++ [cand] else part x) s = unfold_path part s).
        { intros s NI. unfold unfold_path. apply flat_map_ext_In. intros [x ts] Hx. rewrite NEV; auto.
          intros ->. apply NI. apply (in_map fst) in Hx. assumption. }
        destruct (path_cases g W v cand GI J1 J2 Jc Jv SING p (HL p (or_introl eq_refl))) as [O|[l1 [ts [t [l2 T]]]]].
        - rewrite (fuse_off v cand p O). split.
          + rewrite EXT by apply O. exact E2.
          + intros x ts Hx. rewrite NEV; [apply (E3 x ts Hx)|]. intros ->. apply (proj1 O). apply (in_map fst) in Hx. assumption.
        - rewrite (fuse_through v cand p _ _ _ _ T). cbn [snd]. destruct T as [T1 [T2 [T3 [T4 T5]]]]. split.
          + rewrite E2, T1. unfold unfold_path. rewrite !flat_map_app. f_equal.
            * symmetry. apply (EXT l1 T2).
            * cbn [flat_map]. rewrite Nat.eqb_refl, PC.
              assert (LV : length ts = length (part v)) by (apply E3; rewrite T1; apply in_or_app; right; left; reflexivity).
              rewrite map_app, combine_app by (rewrite map_length; auto). rewrite <- app_assoc. f_equal. cbn. f_equal.
              symmetry. apply (EXT l2 T4).
          + intros x ts' Hx. apply in_app_or in Hx as [Hx|[Hx|Hx]].
            * rewrite NEV; [apply E3; rewrite T1; apply in_or_app; auto|]. intros ->. apply T2. apply (in_map fst) in Hx. assumption.
            * injection Hx as <- <-. rewrite Nat.eqb_refl, !app_length. cbn [length].
              f_equal. apply E3. rewrite T1. apply in_or_app. right. left. reflexivity.
            * rewrite NEV; [apply E3; rewrite T1; apply in_or_app; right; right; right; assumption|].
              intros ->. apply T4. apply (in_map fst) in Hx. assumption. }
      apply G; auto.
    - intros x Hx. apply A3 in Hx as [Hx _]. apply (jo_verts _ _ _ _ _ _ JO). assumption.
    - intros x Hx. apply A3 in Hx as [Hx _]. destruct (jo_head _ _ _ _ _ _ JO x Hx) as [r E].
      destruct (x =? v) eqn:XV; [|eauto]. apply Nat.eqb_eq in XV. subst x. rewrite E. exists (r ++ [cand]). reflexivity.
    - intros x a b Hx Hab. apply A3 in Hx as [Hx _]. destruct (x =? v) eqn:XV; [|apply (jo_links _ _ _ _ _ _ JO x); assumption].
      apply Nat.eqb_eq in XV. subst x. destruct (jo_head _ _ _ _ _ _ JO v V1) as [r E].
      rewrite E in Hab. change ((v :: r) ++ [cand]) with (v :: r ++ [cand]) in Hab. rewrite pairs_snoc in Hab.
      apply in_app_or in Hab as [Hab|[Hab|[]]].
      + apply (jo_links _ _ _ _ _ _ JO v); auto. rewrite E. assumption.
      + injection Hab as <- <-. assert (EL : last r v = last (part v) v) by (rewrite E; symmetry; apply last_cons).
        rewrite EL. split; [|split; [assumption|split]].
        * intros C. (* the last vertex of the chain is not start *)
          destruct (exists_last (l := part v)) as [q [z EZ]]; [rewrite E; discriminate|].
          rewrite EZ, last_snoc in C. subst z. destruct q as [|q0 q].
          -- rewrite E in EZ. injection EZ as -> _. congruence.
          -- destruct (exists_last (l := q0 :: q)) as [q' [y EY]]; [discriminate|].
             assert (L : In (y, v_start) (pairs (part v))).
             { rewrite EZ, EY. apply pairs_In. exists q', []. rewrite <- app_assoc. reflexivity. }
             destruct (jo_links _ _ _ _ _ _ JO v _ _ V1 L) as [_ [_ [_ L2]]].
             pose proof (proj2 (L2 y) eq_refl) as X.
             (* an edge into start in g0 *)
             assert (SG : In v_start (vertices g)) by (apply (start_In g W GI)).
             destruct (jo_preds _ _ _ _ _ _ JO y v_start SG X) as [u [U1 U2]].
             assert (X' : edge g u v_start) by (apply (jo_edges _ _ _ _ _ _ JO); [assumption|rewrite U2; assumption]).
             apply (no_edge_to_start g W GI u X').
        * intros w. rewrite <- (jo_edges _ _ _ _ _ _ JO v w V1). apply J1.
        * intros u. split.
          -- intros X. destruct (jo_preds _ _ _ _ _ _ JO u cand V2 X) as [u' [U1 U2]].
             assert (X' : edge g u' cand) by (apply (jo_edges _ _ _ _ _ _ JO); [assumption|rewrite U2; assumption]).
             apply J2 in X'. subst u'. congruence.
          -- intros ->. apply (jo_edges _ _ _ _ _ _ JO); auto. apply J1. reflexivity.
    - intros u w Hu. apply A3 in Hu as [Hu NC]. rewrite A4. destruct (u =? v) eqn:UV.
      + rewrite last_snoc. rewrite (jo_edges _ _ _ _ _ _ JO cand w V2), PC. reflexivity.
      + rewrite (jo_edges _ _ _ _ _ _ JO u w Hu). tauto.
    - intros u0 w Hw X. apply A3 in Hw as [Hw NW]. destruct (jo_preds _ _ _ _ _ _ JO u0 w Hw X) as [u [U1 U2]].
      destruct (Nat.eq_dec u cand) as [->|NU].
      + exists v. split; [apply A3; auto|]. rewrite Nat.eqb_refl, last_snoc. rewrite PC in U2. exact U2.
      + exists u. split; [apply A3; auto|]. rewrite NEV; auto. intros ->.
        assert (X' : edge g v w) by (apply (jo_edges _ _ _ _ _ _ JO); [assumption|rewrite U2; assumption]).
        apply J1 in X'. congruence.
    - rewrite !NEV by auto. apply (jo_ends _ _ _ _ _ _ JO).
    - intros x Hx. pose proof Hx as Hx'. apply A3 in Hx as [Hx NC].
      destruct (dget_Some_key _ nat_eqb_ok x (g_verts g') Hx') as [vx' D]. destruct (A5 x vx' D) as [vx [D1 D2]].
      unfold label_of at 1. rewrite D. destruct (x =? v) eqn:XV.
      + apply Nat.eqb_eq in XV. subst x. destruct D2 as [cx [D2 D3]]. rewrite D3.
        destruct (jo_head _ _ _ _ _ _ JO v V1) as [r E]. rewrite E. cbn [app tl]. rewrite map_app, fold_left_app. cbn [map fold_left].
        pose proof (jo_label _ _ _ _ _ _ JO v V1) as L1. pose proof (jo_label _ _ _ _ _ _ JO cand V2) as L2.
        rewrite PC in L2. cbn [tl map fold_left] in L2. rewrite E in L1. cbn [tl] in L1.
        rewrite <- L1, <- L2. unfold label_of. rewrite D1, D2. reflexivity.
      + rewrite D2. pose proof (jo_label _ _ _ _ _ _ JO x Hx) as L. unfold label_of at 1 in L. rewrite D1 in L. exact L.
  Qed.

  Lemma joinable_model : forall g u, NoDup (edge_pairs g) ->
    match out_edges g u with
    | [((_, cand), _)] => if negb (cand =? v_end) && (length (in_edges g cand) =? 1)
                          then u <> v_start -> joinable g u cand
                          else forall c, ~ joinable g u c
    | _ => forall c, ~ joinable g u c
    end.
  Proof.
    intros g u N. assert (NJ : (forall c l, out_edges g u <> [((u, c), l)]) -> forall c, ~ joinable g u c).
    { intros H c [_ [_ [J _]]]. destruct (out_single_inv g u c N J) as [l E]. apply (H c l E). }
    destruct (out_edges g u) as [|[[u' cand] l] [|e2 r]] eqn:E.
    - apply NJ. intros c l. discriminate.
    - assert (u' = u). { assert (I : In ((u', cand), l) (out_edges g u)) by (rewrite E; left; reflexivity). apply out_edges_In in I. tauto. }
      subst u'. pose proof (out_single g u cand l N E) as OS.
      destruct (negb (cand =? v_end) && (length (in_edges g cand) =? 1)) eqn:B.
      + intros Hu. apply andb_true_iff in B as [B1 B2]. apply negb_true_iff, Nat.eqb_neq in B1. apply Nat.eqb_eq in B2.
        split; [assumption|]. split; [assumption|]. split; [exact OS|].
        apply (in_single g cand N) in B2 as [z Z]. assert (z = u) by (symmetry; apply Z, OS; reflexivity). subst z. exact Z.
      + intros c [J1 [J2 [J3 J4]]]. assert (c = cand) by (apply OS, J3; reflexivity). subst c.
        apply andb_false_iff in B as [B|B].
        * apply negb_false_iff, Nat.eqb_eq in B. congruence.
        * apply Nat.eqb_neq in B. apply B. apply (in_single g cand N). exists u. exact J4.
    - apply NJ. intros c l'. discriminate.
  Qed.

  Lemma push_spec : forall processed' es q,
    fold_left (fun q e => let nb := snd (fst e) in if existsb (Nat.eqb nb) processed' then q else nb :: q) es q =
    rev (filter (fun x => negb (existsb (Nat.eqb x) processed')) (map (fun e : vid * vid * str => snd (fst e)) es)) ++ q.
  Proof.
    induction es as [|e es IH]; intros q; [reflexivity|]. cbn [fold_left map filter]. cbv zeta. rewrite IH.
    destruct (existsb (Nat.eqb (snd (fst e))) processed'); cbn [negb]; [reflexivity|].
    cbn [rev]. rewrite <- app_assoc. reflexivity.
  Qed.

  Lemma todo_absorb : forall g W g' v cand processed, graph_of g W -> NoDup (edge_pairs g') -> joinable g v cand ->
    ~ In v processed -> ~ In cand processed ->
    (forall x y, edge g' x y <-> if x =? v then edge g cand y else x <> cand /\ edge g x y) ->
    length (todo g' processed) < length (todo g processed).
  Proof.
    intros g W g' v cand processed GI N' [_ [_ [J1 J2]]] Pv Pc E.
    set (f := fun e : vid * vid => if fst e =? cand then (v, snd e) else e).
    set (L := filter (fun e => negb (edge_eqb (v, cand) e)) (todo g processed)).
    assert (LL : length L < length (todo g processed)).
    { unfold L. assert (I : In (v, cand) (todo g processed)).
      { apply filter_In. split; [apply J1; reflexivity|]. apply negb_true_iff. cbn [fst].
        destruct (existsb (Nat.eqb v) processed) eqn:Q; auto. apply (existsb_eqb _ nat_eqb_ok) in Q. contradiction. }
      clear - I. induction (todo g processed) as [|a l IH]; [contradiction|]. cbn [filter].
      destruct I as [->|I].
      - rewrite (eqb_refl' _ edge_eqb_ok). cbn [negb length]. pose proof (filter_length_le (fun e => negb (edge_eqb (v, cand) e)) l). lia.
      - apply IH in I. destruct (negb (edge_eqb (v, cand) a)); cbn [length]; lia. }
    assert (INC : incl (todo g' processed) (map f L)).
    { intros [x y] H. apply filter_In in H as [H Q]. cbn [fst] in Q. fold (edge g' x y) in H. apply E in H.
      destruct (x =? v) eqn:XV.
      - apply Nat.eqb_eq in XV. subst x. apply in_map_iff. exists (cand, y). split; [unfold f; cbn [fst snd]; rewrite Nat.eqb_refl; reflexivity|].
        apply filter_In. split.
        + apply filter_In. split; [assumption|]. cbn [fst]. apply negb_true_iff.
          destruct (existsb (Nat.eqb cand) processed) eqn:Q'; auto. apply (existsb_eqb _ nat_eqb_ok) in Q'. contradiction.
        + apply negb_true_iff. apply (eqb_neq _ edge_eqb_ok). intro C. injection C as C _.
          subst cand. assert (X : edge g v v) by (apply J1; reflexivity). apply (gi_acyclic _ _ GI v). apply t_step. assumption.
      - destruct H as [H1 H2]. apply in_map_iff. exists (x, y). split.
        + unfold f. cbn [fst]. apply Nat.eqb_neq in H1. rewrite H1. reflexivity.
        + apply filter_In. split; [apply filter_In; auto|]. apply negb_true_iff. apply (eqb_neq _ edge_eqb_ok).
          intro C. injection C as C _. apply Nat.eqb_neq in XV. congruence. }
    assert (ND : NoDup (todo g' processed)) by (apply NoDup_filter; assumption).
    pose proof (NoDup_incl_length ND INC) as X. rewrite map_length in X. lia.
  Qed.

  (** One round of the loop: [v] is finished, or its only neighbour is absorbed. *)
  Lemma join_round : forall g W part v q processed, jinv g W part (v :: q) processed ->
    dmem Nat.eqb v (g_verts g) = true /\ v <> v_start /\
    ((forall c, ~ joinable g v c) ->
       let new := rev (filter (fun x => negb (existsb (Nat.eqb x) (v :: processed))) (map (fun e : vid * vid * str => snd (fst e)) (out_edges g v))) in
       jinv g W part (new ++ q) (v :: processed) /\
       length (new ++ q) + length (todo g (v :: processed)) < length (v :: q) + length (todo g processed)) /\
    (forall cand, joinable g v cand -> part cand = [cand] /\
       exists g', absorb cc g cand v = Ok g' /\ jinv g' (W' W v) (fun x => if x =? v then part v ++ [cand] else part x) (v :: q) processed /\
         length (todo g' processed) < length (todo g processed)).
  Proof.
    intros g W part v q processed JI. destruct JI as [JO SEEN DONE NEXT STACK START FRESH]. pose proof (jo_graph _ _ _ _ _ _ JO) as GI.
    destruct (SEEN v) as [Vv [Vs Vp]]; [left; left; reflexivity|].
    split; [apply (dmem_In _ nat_eqb_ok); assumption|]. split; [exact Vs|]. split.
    { intros NJ new.
      assert (NEW : forall x, In x new <-> edge g v x /\ ~ In x (v :: processed)).
      { intros x. unfold new. rewrite <- in_rev, filter_In, negb_true_iff, in_map_iff. split.
        - intros [[[[a b] l] [E I]] Q]. cbn [fst snd] in E. subst b. apply out_edges_In in I as [I E]. cbn [fst] in E. subst a.
          split; [apply edge_In; eauto|]. intro C. apply (existsb_eqb _ nat_eqb_ok) in C. congruence.
        - intros [E NI]. split.
          + apply edge_In in E as [l E]. exists ((v, x), l). split; [reflexivity|]. apply out_edges_In. auto.
          + destruct (existsb (Nat.eqb x) (v :: processed)) eqn:Q; auto. apply (existsb_eqb _ nat_eqb_ok) in Q. contradiction. }
      assert (CASES : forall x, edge g v x -> In x (v :: processed) \/ In x new).
      { intros x X. destruct (in_dec Nat.eq_dec x (v :: processed)); auto. right. apply NEW. auto. }
      split.
      - constructor.
        + assumption.
        + intros x Hx. assert (X : In x (v :: q) \/ In x processed \/ In x new).
          { destruct Hx as [Hx|[<-|Hx]]; [apply in_app_or in Hx as [Hx|Hx]| |]; auto; left; [right; assumption|left; reflexivity]. }
          destruct X as [X|[X|X]].
          * destruct (SEEN x (or_introl X)) as [A [B C]]. split; auto. split; auto. destruct C as [C|[u [C1 C2]]]; auto.
            right. exists u. split; auto. right. assumption.
          * destruct (SEEN x (or_intror X)) as [A [B C]]. split; auto. split; auto. destruct C as [C|[u [C1 C2]]]; auto.
            right. exists u. split; auto. right. assumption.
          * apply NEW in X as [X NX]. split; [apply (graph_edge_verts g W v x GI X)|]. split.
            -- intros ->. apply (no_edge_to_start g W GI v X).
            -- right. exists v. split; [left; reflexivity|assumption].
        + intros u c [<-|Hu]; [apply NJ|apply DONE; assumption].
        + intros u x [<-|Hu] X.
          * destruct (CASES x X) as [C|C]; auto. right. apply in_or_app. auto.
          * destruct (NEXT u x Hu X) as [C|[<-|C]]; [left; right; assumption|left; left; reflexivity|right; apply in_or_app; auto].
        + intros q1 u q2 x E Hu X.
          destruct (Nat.eq_dec u v) as [->|NU].
          * destruct (CASES x X) as [C|C]; auto. right.
            (* all copies of v lie below the new entries *)
            assert (G : forall a, (forall y, In y a -> ~ In y (v :: processed)) -> forall q1', a ++ q = q1' ++ v :: q2 -> forall y, In y a -> In y q1').
            { clear. induction a as [|b a IHa]; intros HA q1' E y Hy; [contradiction|]. destruct q1' as [|c q1'].
              - simpl in E. injection E as -> _. exfalso. apply (HA v); left; reflexivity.
              - simpl in E. injection E as -> E. destruct Hy as [->|Hy]; [left; reflexivity|right].
                apply (IHa (fun z Hz => HA z (or_intror Hz)) q1' E y Hy). }
            apply (G new); auto. intros y Hy. apply NEW in Hy. tauto.
          * destruct Hu as [Hu|Hu]; [congruence|].
            assert (G : forall a q1', (forall y, In y a -> ~ In y (v :: processed)) -> a ++ q = q1' ++ u :: q2 ->
              exists q3, q = q3 ++ u :: q2 /\ forall y, In y q3 -> In y q1').
            { clear - Hu. induction a as [|b a IHa]; intros q1' HA E.
              - exists q1'. auto.
              - destruct q1' as [|c q1'].
                + simpl in E. injection E as -> _. exfalso. apply (HA u); [left; reflexivity|right; assumption].
                + simpl in E. injection E as -> E. destruct (IHa q1' (fun z Hz => HA z (or_intror Hz)) E) as [q3 [A B]].
                  exists q3. split; auto. intros y Hy. right. auto. }
            destruct (G new q1) as [q3 [Q1 Q2]]; [intros y Hy; apply NEW in Hy; tauto|exact E|].
            destruct (STACK (v :: q3) u q2 x) as [C|[<-|C]]; auto.
            -- rewrite Q1. reflexivity.
            -- left. right. assumption.
            -- left. left. reflexivity.
        + intros x X. destruct (START x X) as [C|[<-|C]]; [left; right; assumption|left; left; reflexivity|right; apply in_or_app; auto].
        + intros x Hx N1 N2. apply FRESH; auto.
          * intros [<-|C]; [apply N2; left; reflexivity|apply N1; apply in_or_app; auto].
          * intros C. apply N2. right. assumption.
      - (* fuel *)
        rewrite app_length. unfold new. rewrite rev_length. cbn [length].
        destruct (in_dec Nat.eq_dec v processed) as [Pv|Pv].
        + assert (E0 : filter (fun x => negb (existsb (Nat.eqb x) (v :: processed))) (map (fun e : vid * vid * str => snd (fst e)) (out_edges g v)) = []).
          { apply filter_none. intros x Hx. apply in_map_iff in Hx as [[[a b] l] [E I]]. cbn [fst snd] in E. subst b.
            apply out_edges_In in I as [I E]. cbn [fst] in E. subst a. apply negb_false_iff. apply (existsb_eqb _ nat_eqb_ok).
            destruct (STACK [] v q x eq_refl Pv) as [C|[]]; [apply edge_In; eauto|right; assumption]. }
          rewrite E0. cbn [length].
          assert (T : length (todo g (v :: processed)) <= length (todo g processed)).
          { unfold todo. clear. induction (edge_pairs g) as [|e l IHl]; cbn [filter]; auto. cbn [existsb] in *.
            destruct (fst e =? v); cbn [orb negb]; destruct (existsb (Nat.eqb (fst e)) processed); cbn [negb length]; lia. }
          lia.
        + assert (T : length (filter (fun x => negb (existsb (Nat.eqb x) (v :: processed))) (map (fun e : vid * vid * str => snd (fst e)) (out_edges g v)))
                      + length (todo g (v :: processed)) <= length (todo g processed)).
          { pose proof (filter_length_le (fun x => negb (existsb (Nat.eqb x) (v :: processed))) (map (fun e : vid * vid * str => snd (fst e)) (out_edges g v))) as L.
            rewrite map_length in L.
            assert (T : length (out_edges g v) + length (todo g (v :: processed)) <= length (todo g processed)).
            { assert (Pv' : existsb (Nat.eqb v) processed = false).
              { destruct (existsb (Nat.eqb v) processed) eqn:Q; auto. apply (existsb_eqb _ nat_eqb_ok) in Q. contradiction. }
              clear - Pv'. unfold out_edges, todo, edge_pairs. induction (g_edges g) as [|e l IHl]; cbn [filter map]; auto.
              cbn [existsb] in *. destruct (fst (fst e) =? v) eqn:Q; cbn [orb negb].
              - apply Nat.eqb_eq in Q. rewrite Q, Pv'. cbn [negb length]. lia.
              - destruct (existsb (Nat.eqb (fst (fst e))) processed); cbn [negb length]; lia. }
            lia. }
          lia.
    }
    { intros cand J.
      pose proof J as [Jv [Jc [J1 J2]]].
      assert (NP : ~ In v processed) by (intro C; apply (DONE v cand C J)).
      assert (UNSEEN : ~ (In cand (v :: q) \/ In cand processed)).
      { intros C. destruct (SEEN cand C) as [_ [_ [E|[u [U1 U2]]]]].
        - apply J2 in E. congruence.
        - apply J2 in U2. subst u. contradiction. }
      assert (CV : In cand (vertices g)) by (apply (graph_edge_verts g W v cand GI); apply J1; reflexivity).
      assert (PC : part cand = [cand]) by (apply FRESH; auto).
      destruct (joined_step g W part v cand JO J PC) as [g' [A1 [A2 [A3 A4]]]].
      assert (NQ : v <> cand) by (intros C; apply UNSEEN; left; left; assumption).
      assert (ES : forall x, edge g' v_start x <-> edge g v_start x).
      { intros x. rewrite A3. destruct (v_start =? v) eqn:Q; [apply Nat.eqb_eq in Q; congruence|].
        split; [tauto|]. intros X. split; auto. intros C. rewrite <- C in CV.
        assert (Y : edge g v cand) by (apply J1; reflexivity). rewrite <- C in Y. apply (no_edge_to_start g W GI v Y). }
      assert (EP : forall u x, In u processed -> (edge g' u x <-> edge g u x)).
      { intros u x Hu. rewrite A3. destruct (u =? v) eqn:Q; [apply Nat.eqb_eq in Q; subst; contradiction|].
        split; [tauto|]. intros X. split; auto. intros ->. apply UNSEEN. auto. }
      split; [exact PC|]. exists g'. split; [exact A1|]. split.
      + constructor.
        * exact A4.
        * intros x Hx. destruct (SEEN x Hx) as [S1 [S2 S3]]. split.
          { apply A2. split; auto. intros ->. contradiction. }
          split; auto. destruct S3 as [S3|[u [U1 U2]]]; [left; apply ES; assumption|].
          right. exists u. split; auto. apply EP; auto.
        * intros u c Hu [K1 [K2 [K3 K4]]]. apply (DONE u c Hu). split; auto. split; auto. split.
          { intros w. rewrite <- (EP u w Hu). apply K3. }
          intros w. split.
          { intros X. destruct (Nat.eq_dec w cand) as [->|NW].
            - (* an edge from cand becomes an edge from v *)
              assert (Y : edge g' v c) by (apply A3; rewrite Nat.eqb_refl; assumption). apply K4 in Y. subst u. contradiction.
            - destruct (Nat.eq_dec w v) as [->|NWV].
              + apply J1 in X. subst c. exfalso.
                assert (Z : edge g' u cand) by (apply K3; reflexivity). apply EP in Z; auto. apply J2 in Z. subst u. contradiction.
              + apply K4. apply A3. apply Nat.eqb_neq in NWV. rewrite NWV. auto. }
          { intros ->. apply EP; auto. apply K3. reflexivity. }
        * intros u x Hu X. apply EP in X; auto. apply (NEXT u x Hu X).
        * intros q1 u q2 x E Hu X. apply EP in X; auto. apply (STACK q1 u q2 x E Hu X).
        * intros x X. apply ES in X. apply START. assumption.
        * intros x Hx N1 N2. apply A2 in Hx as [Hx _]. assert (NX : x <> v) by (intros ->; apply N1; left; reflexivity).
          apply Nat.eqb_neq in NX. rewrite NX. apply FRESH; assumption.
      + pose proof (todo_absorb g W g' v cand processed GI) as T.
        assert (T' : length (todo g' processed) < length (todo g processed)).
        { apply T; auto. apply (gi_edges_nodup _ _ (jo_graph _ _ _ _ _ _ A4)). }
        lia.
    }
  Qed.

  Lemma join_loop_spec : forall fuel g W part queue processed, jinv g W part queue processed ->
    length queue + length (todo g processed) < fuel ->
    exists g' W' part' processed', join_loop cc fuel g queue processed = Ok g' /\ jinv g' W' part' [] processed'.
  Proof.
    induction fuel as [|fuel IH]; intros g W part queue processed JI F; [lia|].
    destruct queue as [|v q]; [exists g, W, part, processed; split; [reflexivity|assumption]|].
    cbn [join_loop]. destruct (join_round g W part v q processed JI) as [MV [Vs [RO RA]]].
    pose proof (jo_graph _ _ _ _ _ _ (ji_joined _ _ _ _ _ JI)) as GI.
    rewrite MV. cbn [negb]. rewrite push_spec. pose proof (joinable_model g v (gi_edges_nodup _ _ GI)) as JM.
    assert (OTHER : (forall c, ~ joinable g v c) ->
      exists g' W' part' processed', join_loop cc fuel g
        (rev (filter (fun x => negb (existsb (Nat.eqb x) (v :: processed))) (map (fun e : vid * vid * str => snd (fst e)) (out_edges g v))) ++ q)
        (v :: processed) = Ok g' /\ jinv g' W' part' [] processed').
    { intros NJ. destruct (RO NJ) as [O1 O2]. apply (IH g W part); [exact O1|]. cbv zeta in O2. lia. }
    destruct (out_edges g v) as [|[[u0 cand] l0] [|e2 r]] eqn:OE.
    - apply OTHER. exact JM.
    - destruct (negb (cand =? v_end) && (length (in_edges g cand) =? 1)) eqn:B; [|apply OTHER; exact JM].
      destruct (RA cand (JM Vs)) as [_ [g' [A1 [A2 A3]]]]. rewrite A1. cbn [bind]. apply (IH g' _ _ _ _ A2). lia.
    - apply OTHER. exact JM.
  Qed.
End Loop.

(** ** join *)
Definition one_token (W : list wpath) : Prop := forall p v ts, In p W -> In (v, ts) (snd p) -> length ts = 1.

Lemma join_start : forall cc g0 W0, graph_of g0 W0 -> one_token W0 ->
  let q0 := fold_left (fun q e => snd (fst e) :: q) (out_edges g0 v_start) [] in
  jinv cc g0 W0 g0 W0 (fun v => [v]) q0 [] /\ length q0 + length (todo g0 []) < join_fuel g0.
Proof.
  intros cc g0 W0 GI ONE. cbv zeta.
  assert (PS : forall es q, fold_left (fun q e => snd (fst e) :: q) es q = rev (map (fun e : vid * vid * str => snd (fst e)) es) ++ q).
  { induction es as [|e es IH]; intros q; [reflexivity|]. cbn [fold_left map rev]. rewrite IH, <- app_assoc. reflexivity. }
  rewrite PS, app_nil_r. set (q0 := rev _).
  assert (Q0 : forall x, In x q0 <-> edge g0 v_start x).
  { intros x. unfold q0. rewrite <- in_rev, in_map_iff. split.
    - intros [[[a b] l] [E I]]. cbn [fst snd] in E. subst b. apply out_edges_In in I as [I E]. cbn [fst] in E. subst a. apply edge_In. eauto.
    - intros E. apply edge_In in E as [l E]. exists ((v_start, x), l). split; [reflexivity|]. apply out_edges_In. auto. }
  assert (J0 : joined cc g0 W0 g0 W0 (fun v => [v])).
  { constructor.
    - assumption.
    - assert (G : forall L, (forall p, In p L -> In p W0) -> Forall2 (fun p0 p : wpath => fst p0 = fst p /\
        snd p0 = unfold_path (fun v => [v]) (snd p) /\ forall v ts, In (v, ts) (snd p) -> length ts = length [v]) L L).
      { induction L as [|p L IH]; intros HL; constructor; [|apply IH; intros; apply HL; right; assumption].
        split; [reflexivity|]. assert (O : forall v ts, In (v, ts) (snd p) -> length ts = 1).
        { intros. apply (ONE p v ts); auto. apply HL. left. reflexivity. }
        split; [|exact O]. clear - O. induction (snd p) as [|[v ts] s IH]; [reflexivity|].
        unfold unfold_path. cbn [flat_map]. assert (L : length ts = 1) by (apply (O v); left; reflexivity).
        destruct ts as [|t [|? ?]]; try discriminate. cbn. f_equal. apply IH. intros. apply (O v0). right. assumption. }
      apply G. auto.
    - auto.
    - eauto.
    - intros v a b _ [].
    - intros u w _. reflexivity.
    - intros u0 w Hw E. exists u0. split; [apply (graph_edge_verts g0 W0 u0 w GI E)|reflexivity].
    - auto.
    - reflexivity. }
  split.
  - constructor; [assumption| | | | | |].
    + intros x [Hx|[]]. apply Q0 in Hx. split; [apply (graph_edge_verts g0 W0 v_start x GI Hx)|]. split; auto.
      intros ->. apply (no_edge_to_start g0 W0 GI v_start Hx).
    + intros u c [].
    + intros u x [].
    + intros q1 u q2 x _ [].
    + intros x X. right. apply Q0. assumption.
    + reflexivity.
  - unfold join_fuel, q0, todo. rewrite rev_length, map_length.
    pose proof (filter_length_le (fun e : vid * vid * str => fst (fst e) =? v_start) (g_edges g0)) as L1.
    pose proof (filter_length_le (fun e => negb (existsb (Nat.eqb (fst e)) [])) (edge_pairs g0)) as L2.
    unfold edge_pairs at 2 in L2. rewrite map_length in L2. unfold out_edges. lia.
Qed.

Theorem join_spec : forall cc g0 W0, graph_of g0 W0 -> one_token W0 ->
  exists g W part, join cc g0 = Ok g /\ joined cc g0 W0 g W part /\
    forall u c, In u (vertices g) -> ~ joinable g u c.
Proof.
  intros cc g0 W0 GI ONE. unfold join. destruct (join_start cc g0 W0 GI ONE) as [JS JF].
  destruct (join_loop_spec cc g0 W0 (join_fuel g0) g0 W0 (fun v => [v]) _ [] JS JF) as [g [W [part [processed [E JI]]]]].
  exists g, W, part. split; [exact E|]. split; [apply (ji_joined _ _ _ _ _ _ _ _ JI)|].
    pose proof (jo_graph _ _ _ _ _ _ (ji_joined _ _ _ _ _ _ _ _ JI)) as GI'.
    (* every vertex but start is processed *)
    assert (ALL : forall p l1 x l2, In p W -> chain p = v_start :: l1 ++ x :: l2 -> In x processed).
    { intros p l1. induction l1 as [|y l1 IH] using rev_ind; intros x l2 Hp EC.
      - assert (X : edge g v_start x) by (apply (graph_edge_path g W); auto; exists p; split; auto; apply pairs_In; exists [], l2; assumption).
        destruct (ji_start _ _ _ _ _ _ _ _ JI x X) as [C|[]]. assumption.
      - assert (Y : In y processed) by (apply (IH y (x :: l2) Hp); rewrite EC, <- app_assoc; reflexivity).
        assert (X : edge g y x).
        { apply (graph_edge_path g W); auto. exists p. split; auto. apply pairs_In. exists (v_start :: l1), l2. rewrite EC, <- app_assoc. reflexivity. }
        destruct (ji_next _ _ _ _ _ _ _ _ JI y x Y X) as [C|[]]. assumption. }
    intros u c Hu J. pose proof J as [J1 [_ [J3 _]]].
    assert (P : In u processed).
    { destruct (gi_cover _ _ GI' u Hu) as [->|[->|[p [ts [Hp Hi]]]]]; [congruence| |].
      - exfalso. apply (no_edge_from_end g W c GI'). apply J3. reflexivity.
      - apply (in_map fst) in Hi. cbn [fst] in Hi. destruct (chain_split p u Hi) as [l1 [l2 EC]]. apply (ALL p l1 u (l2 ++ [v_end]) Hp EC). }
    apply (ji_done _ _ _ _ _ _ _ _ JI u c P J).
Qed.
