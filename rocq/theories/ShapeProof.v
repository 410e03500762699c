(** Neighbouring columns of a segmented table (C88). *)
From Verif Require Import Py Lib TokenModel SuffixModel IndexModel GraphModel AlignModel TableModel NearModel ExportModel
  CollateModel GraphSpec CollateSpec TableSpec GraphProof MergeProof AlignerProof RankProof TableProof CollateProof IndexProof StageProof
  ResultProof FactsProof IdentProof NearProof ReadProof CommonProof ExportProof SegProof SizeProof.
From Coq Require Import QArith.
Open Scope list_scope.
Open Scope nat_scope.

Lemma tokens_few : forall (X : list wpath) v, length (tokens_on X v) <= length X.
Proof. induction X as [|x X IH]; intros v; [apply le_n|]. specialize (IH v). unfold tokens_on in *. cbn [flat_map length]. rewrite app_length. destruct (dget Nat.eqb v (snd x)); cbn [length]; lia. Qed.
Lemma tokens_full : forall (X : list wpath) v, length (tokens_on X v) = length X -> forall p, In p X -> In v (map fst (snd p)).
Proof.
  induction X as [|x X IH]; intros v C p Hp; [destruct Hp|]. pose proof (tokens_few X v) as LE. unfold tokens_on in *. cbn [flat_map length] in C. rewrite app_length in C.
  destruct (dget Nat.eqb v (snd x)) as [ts|] eqn:D; cbn [length] in C; [|lia].
  destruct Hp as [<-|Hp]; [apply (dget_In _ nat_eqb_ok) in D; apply (in_map fst) in D; exact D|apply IH; [lia|assumption]].
Qed.

Section Shape.
  Variables (g : graph) (W : list wpath) (rk : vid -> nat) (m : nat) (l : list vid).
  Hypothesis GI : graph_of g W.
  Hypothesis RO : rank_ok g rk m l.
  Hypothesis NW : W <> [].

  Definition on_all (v : vid) : Prop := forall p, In p W -> In v (map fst (snd p)).

  Lemma chain_mono : forall p i j a b, In p W -> nth_error (chain p) i = Some a -> nth_error (chain p) j = Some b -> i < j -> rk a < rk b.
  Proof.
    intros p i j a b Hp A B L. apply nth_error_split in B as [l1 [l2 [E L1]]].
    assert (A' : nth_error l1 i = Some a) by (rewrite E, nth_error_app1 in A by lia; assumption).
    apply nth_error_split in A' as [l3 [l4 [E' _]]].
    apply (chain_ranks g W rk m l GI RO p l3 a l4 b l2 Hp). rewrite E, E', <- app_assoc. reflexivity.
  Qed.

  (** Neighbours on the ranks are neighbours on a path. *)
  Lemma chain_next : forall p i j a b, In p W -> nth_error (chain p) i = Some a -> nth_error (chain p) j = Some b -> rk b = S (rk a) -> j = S i.
  Proof.
    intros p i j a b Hp A B R. destruct (Nat.lt_trichotomy j i) as [L|[->|L]].
    - pose proof (chain_mono p j i b a Hp B A L). lia.
    - rewrite A in B. injection B as ->. lia.
    - destruct (Nat.eq_dec j (S i)) as [|N]; [assumption|].
      destruct (nth_error (chain p) (S i)) as [x|] eqn:X.
      + pose proof (chain_mono p i (S i) a x Hp A X). pose proof (chain_mono p (S i) j x b Hp X B). lia.
      + apply nth_error_None in X. assert (j < length (chain p)) by (apply nth_error_Some; congruence). lia.
  Qed.

  Lemma on_chain : forall p v, In v (map fst (snd p)) -> exists i, nth_error (chain p) i = Some v.
  Proof.
    intros p v H. apply In_nth_error. unfold chain. right. apply in_or_app. left. assumption.
  Qed.

  Lemma chain_inner : forall p v i, nth_error (chain p) i = Some v -> v <> v_start -> v <> v_end -> In v (map fst (snd p)).
  Proof.
    intros p v i H A B. apply nth_error_In in H. unfold chain in H. destruct H as [H|H]; [congruence|].
    apply in_app_or in H as [H|[H|[]]]; [assumption|congruence].
  Qed.

  Lemma on_vertex_inner : forall p v, In p W -> In v (map fst (snd p)) -> In v (vertices g) /\ v <> v_start /\ v <> v_end.
  Proof.
    intros p v Hp Hv. split; [|apply (not_ends g W GI p v Hp Hv)].
    apply in_map_iff in Hv as [[v' ts] [E H]]. cbn [fst] in E. subst v'. apply (gi_on _ _ GI p v ts Hp H).
  Qed.

  Lemma same_rank_path : forall p a b, In p W -> In a (map fst (snd p)) -> In b (map fst (snd p)) -> rk a = rk b -> a = b.
  Proof.
    intros p a b Hp A B R. apply on_chain in A as [i A]. apply on_chain in B as [j B].
    destruct (Nat.lt_trichotomy i j) as [L|[->|L]]; [pose proof (chain_mono p i j a b Hp A B L); lia|congruence|pose proof (chain_mono p j i b a Hp B A L); lia].
  Qed.

  (** The column number [i] stands for the rank after it, and is not variant iff a vertex of this rank is on all paths. *)
  Lemma column_rank : forall i col, nth_error (t_columns (the_table W rk m l (map fst W))) i = Some col ->
    (exists v, In v (vertices g) /\ v <> v_start /\ v <> v_end /\ rk v = S i) /\
    (c_variant col = false <-> exists v, on_all v /\ rk v = S i).
  Proof.
    intros i col H. destruct (placed_ranks g W rk m l _ GI NW RO (base_placed g W rk m l GI NW RO rk m l RO)) as [P1 P2].
    pose proof (rank_end_max g W rk m l GI RO NW) as RM.
    pose proof H as H0. unfold the_table in H. cbn [t_columns] in H. rewrite nth_error_map in H.
    destruct (nth_error (table_ranks rk m l) i) as [[r vs]|] eqn:ER; [|discriminate]. cbn in H. injection H as <-.
    pose proof (map_nth_error fst _ _ ER) as Q. unfold table_ranks, ranks_table in Q. rewrite P1 in Q. cbn [fst] in Q.
    assert (Li : i < m - 2) by (rewrite <- (seq_length (m - 2) 1); apply nth_error_Some; congruence).
    rewrite (nth_error_nth' _ 0) in Q by (rewrite seq_length; assumption). rewrite seq_nth in Q by assumption. injection Q as <-. cbn [Nat.add] in *.
    pose proof ER as ER'. apply nth_error_In in ER. unfold table_ranks in ER. apply filter_In in ER as [ER EX]. cbn [snd] in EX.
    destruct (ranks_vs g W rk m l GI RO _ _ ER) as [NV V].
    assert (INN : forall v, In v vs -> v <> v_start /\ v <> v_end).
    { intros v Hv. apply V in Hv as [_ R]. split; intros ->.
      - rewrite (rank_start g W rk m l GI RO) in R. discriminate.
      - lia. }
    split.
    { apply existsb_exists in EX as [v [Hv _]]. exists v. destruct (INN v Hv). apply V in Hv as [Hv R]. auto. }
    split.
    - cbn [c_variant mkcol snd]. intros C. apply orb_false_iff in C as [C1 C2]. apply Nat.ltb_ge in C1. apply negb_false_iff, Nat.eqb_eq in C2.
      destruct vs as [|v [|? ?]]; [discriminate| |cbn in C1; lia]. exists v. split; [|apply V; left; reflexivity].
      unfold cells_of in C2. cbn [flat_map] in C2. rewrite app_nil_r, map_length in C2.
      unfold on_all. intros p Hp. apply (tokens_full W v C2 p Hp).
    - intros [v [ON R]]. assert (exists p, In p W) as [p Hp] by (destruct W as [|p ?]; [congruence|exists p; left; reflexivity]).
      destruct (on_vertex_inner p v Hp (ON p Hp)) as [Vv _].
      destruct (unique_column g W rk m l v GI NW RO ON ltac:(lia) Vv) as [col [A [B _]]].
      + intros w Hw Rw. destruct (gi_cover _ _ GI w Hw) as [->|[->|[q [ts [Hq Hi]]]]].
        * rewrite (rank_start g W rk m l GI RO) in Rw. lia.
        * lia.
        * apply (same_rank_path q w v Hq); [apply (in_map fst) in Hi; exact Hi|apply ON; assumption|assumption].
      + replace (rk v - 1) with i in A by lia. rewrite H0 in A. injection A as A. rewrite A. assumption.
  Qed.

  Hypothesis MAX : forall u w, In u (vertices g) -> ~ joinable g u w.

  Lemma not_both_invariant : forall a b, on_all a -> on_all b -> rk b = S (rk a) -> False.
  Proof.
    intros a b A B R. assert (exists p, In p W) as [p Hp] by (destruct W as [|p ?]; [congruence|exists p; left; reflexivity]).
    destruct (on_vertex_inner p a Hp (A p Hp)) as [Va [A1 A2]]. destruct (on_vertex_inner p b Hp (B p Hp)) as [Vb [B1 B2]].
    assert (OUT : forall w, edge g a w -> w = b).
    { intros w E. apply (graph_edge_path g W a w GI) in E as [q [Hq E]]. apply pairs_nth_inv in E as [j [J1 J2]].
      destruct (on_chain q b (B q Hq)) as [k K]. pose proof (chain_next q j k a b Hq J1 K R). subst k. congruence. }
    assert (Eab : edge g a b).
    { destruct (on_chain p a (A p Hp)) as [j J]. destruct (on_chain p b (B p Hp)) as [k K]. pose proof (chain_next p j k a b Hp J K R). subst k.
      apply (graph_edge_path g W a b GI). exists p. split; [assumption|]. apply (pairs_nth _ j); assumption. }
    apply (MAX a b Va). split; [assumption|]. split; [assumption|]. split; [intros w; split; [apply OUT|intros ->; assumption]|].
    intros u. split; [|intros ->; assumption]. intros E. apply (graph_edge_path g W u b GI) in E as [q [Hq E]]. apply pairs_nth_inv in E as [j [J1 J2]].
    destruct (on_chain q a (A q Hq)) as [k K]. pose proof (chain_next q k (S j) a b Hq K J2 R) as Q. injection Q as <-. congruence.
  Qed.

  (** A vertex that is on one path only. *)
  Lemma not_both_alone : forall a b, In b (vertices g) -> b <> v_end -> a <> v_start -> edge g a b ->
    (forall p q, In p W -> In q W -> In a (map fst (snd p)) -> In a (map fst (snd q)) -> p = q) ->
    (forall p q, In p W -> In q W -> In b (map fst (snd p)) -> In b (map fst (snd q)) -> p = q) -> False.
  Proof.
    intros a b Vb B2 A1 E SA SB. pose proof E as E0. apply (graph_edge_path g W a b GI) in E as [p [Hp E]]. apply pairs_nth_inv in E as [i [I1 I2]].
    destruct (graph_edge_verts g W a b GI E0) as [Va _].
    assert (A2 : a <> v_end).
    { intros ->. pose proof (ro_edge _ _ _ _ RO v_end b E0). pose proof (rank_le_end g W rk m l GI RO NW b Vb B2). lia. }
    assert (B1 : b <> v_start).
    { intros ->. pose proof (ro_edge _ _ _ _ RO a v_start E0) as Q. rewrite (rank_start g W rk m l GI RO) in Q. lia. }
    pose proof (chain_inner p a i I1 A1 A2) as Pa. pose proof (chain_inner p b (S i) I2 B1 B2) as Pb.
    apply (MAX a b Va). split; [assumption|]. split; [assumption|]. split.
    - intros w. split; [|intros ->; assumption]. intros X. apply (graph_edge_path g W a w GI) in X as [q [Hq X]]. apply pairs_nth_inv in X as [j [J1 J2]].
      assert (q = p) by (apply SA; try assumption; apply (chain_inner q a j J1 A1 A2)). subst q.
      assert (j = i) by (apply (proj1 (NoDup_nth_error (chain p)) (gi_simple _ _ GI p Hp)); [apply nth_error_Some; congruence|congruence]). subst j. congruence.
    - intros u. split; [|intros ->; assumption]. intros X. apply (graph_edge_path g W u b GI) in X as [q [Hq X]]. apply pairs_nth_inv in X as [j [J1 J2]].
      assert (q = p) by (apply SB; try assumption; apply (chain_inner q b _ J2 B1 B2)). subst q.
      assert (S j = S i) by (apply (proj1 (NoDup_nth_error (chain p)) (gi_simple _ _ GI p Hp)); [apply nth_error_Some; congruence|congruence]).
      injection H as ->. congruence.
  Qed.
End Shape.

Lemma carries_sigla : forall c W, Forall2 carries c W -> map w_sigil c = map fst W.
Proof. intros c W F. induction F as [|w p c W [H _] F IH]; [reflexivity|]. cbn. rewrite H, IH. reflexivity. Qed.

Section Table.
  Variables (cc : cclass) (topo : graph -> res (list vid)) (ratio : str -> str -> Q).
  Hypothesis TO : topo_ok topo.

  Theorem no_two_invariant : forall c o t, good_sigla c -> o_segmentation o = true -> o_near o = false ->
    collate cc topo ratio c o = Ok (OTable t) ->
    forall i a b, nth_error (t_columns t) i = Some a -> nth_error (t_columns t) (S i) = Some b -> c_variant a = true \/ c_variant b = true.
  Proof.
    intros c o t G Hs Hn H i a b A B.
    destruct (table_parts cc topo ratio TO c o t G Hn H) as [g [W [rk [m [l [_ [GI [NW [CA [RO [-> [_ [_ MX]]]]]]]]]]]]].
    rewrite (carries_sigla c W CA) in A, B.
    destruct (c_variant a) eqn:Ea; [auto|]. destruct (c_variant b) eqn:Eb; [auto|]. exfalso.
    destruct (column_rank g W rk m l GI RO NW i a A) as [_ [Fa _]]. destruct (Fa Ea) as [x [X1 X2]].
    destruct (column_rank g W rk m l GI RO NW (S i) b B) as [_ [Fb _]]. destruct (Fb Eb) as [y [Y1 Y2]].
    apply (not_both_invariant g W rk m l GI RO NW (MX Hs) x y X1 Y1). lia.
  Qed.

  Theorem two_alternate : forall w1 w2 o t, good_sigla [w1; w2] -> o_segmentation o = true -> o_near o = false ->
    collate cc topo ratio [w1; w2] o = Ok (OTable t) ->
    forall i a b, nth_error (t_columns t) i = Some a -> nth_error (t_columns t) (S i) = Some b -> c_variant a = negb (c_variant b).
  Proof.
    intros w1 w2 o t G Hs Hn H i a b A B. destruct (no_two_invariant [w1; w2] o t G Hs Hn H i a b A B) as [E|E].
    all: destruct (c_variant a) eqn:Ea, (c_variant b) eqn:Eb; try reflexivity; try discriminate E; exfalso; clear E.
    all: destruct (table_parts cc topo ratio TO [w1; w2] o t G Hn H) as [g [W [rk [m [l [_ [GI [NW [CA [RO [-> [_ [_ MX]]]]]]]]]]]]].
    all: rewrite (carries_sigla _ W CA) in A, B.
    all: destruct (column_rank g W rk m l GI RO NW i a A) as [_ [_ Fa]].
    all: destruct (column_rank g W rk m l GI RO NW (S i) b B) as [[y [Vy [Y1 [Y2 Ry]]]] [_ Fb]].
    all: pose proof (ro_eq _ _ _ _ RO y Vy) as R; rewrite Ry in R; symmetry in R; apply rank_of_pos in R as [x [Exy Rx]].
    all: apply (not_both_alone g W rk m l GI RO NW (MX Hs) x y Vy Y2); [intros ->; rewrite (rank_start g W rk m l GI RO) in Rx; discriminate|exact Exy| |].
    all: inversion CA as [|? p ? W' C1 CA']; subst; inversion CA' as [|? q ? W'' C2 CA'']; subst; inversion CA''; subst.
    all: intros p' q' Hp Hq P Q.
    all: destruct Hp as [<-|[<-|[]]]; destruct Hq as [<-|[<-|[]]]; try reflexivity; exfalso.
    all: solve [assert (Z : c_variant a = false) by (apply Fa; eexists; split; [intros ? [<-|[<-|[]]]; eassumption|eassumption]); congruence
               |assert (Z : c_variant b = false) by (apply Fb; eexists; split; [intros ? [<-|[<-|[]]]; eassumption|eassumption]); congruence].
  Qed.
End Table.

(** In an alternating list the two kinds are about equally many. *)
Lemma alternating_count : forall (l : list bool), (forall i a b, nth_error l i = Some a -> nth_error l (S i) = Some b -> a = negb b) ->
  length (filter (fun b => b) l) <= S (length (filter negb l)) /\ length (filter negb l) <= S (length (filter (fun b => b) l)).
Proof.
  intros l. assert (G : forall n l, length l <= n -> (forall i a b, nth_error l i = Some a -> nth_error l (S i) = Some b -> a = negb b) ->
    length (filter (fun b => b) l) <= S (length (filter negb l)) /\ length (filter negb l) <= S (length (filter (fun b => b) l))).
  { clear l. induction n as [|n IH]; intros l L H.
    - destruct l; [cbn; lia|cbn in L; lia].
    - destruct l as [|a [|b l]]; [cbn; lia|destruct a; cbn; lia|].
      pose proof (H 0 a b eq_refl eq_refl) as E. destruct (IH l) as [A B]; [cbn in L; lia|intros i; apply (H (S (S i)))|].
      destruct b; subst a; cbn [filter negb length]; lia. }
  intros H. apply (G (length l) l (le_n _) H).
Qed.
