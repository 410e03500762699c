(** Proofs about the construction of the alignment table from a ranked graph. *)
From Verif Require Import Py Lib TokenModel SuffixModel IndexModel GraphModel TableModel
  GraphSpec GraphProof MergeProof RankProof TableSpec.

Definition inner (v : vid) : bool := negb ((v =? v_start) || (v =? v_end)).

Lemma inner_iff : forall v, inner v = true <-> v <> v_start /\ v <> v_end.
Proof.
  intros. unfold inner. rewrite negb_true_iff, orb_false_iff, !Nat.eqb_neq. reflexivity.
Qed.

Lemma put_tokens_new : forall L cells, NoDup (map fst (cells ++ L)) -> put_tokens cells L = cells ++ L.
Proof.
  unfold put_tokens. induction L as [|[sg ts] L IH]; intros cells N; simpl; [rewrite app_nil_r; reflexivity|].
  rewrite (dset_new _ str_eqb_ok).
  - rewrite IH; rewrite <- app_assoc; auto.
  - rewrite map_app in N. simpl in N. apply NoDup_remove_2 in N. rewrite in_app_iff in N. tauto.
Qed.

Lemma put_tokens_app : forall L1 L2 cells, put_tokens cells (L1 ++ L2) = put_tokens (put_tokens cells L1) L2.
Proof. intros. unfold put_tokens. apply fold_left_app. Qed.

Lemma tokens_on_ends : forall g W v, graph_of g W -> inner v = false -> tokens_on W v = [].
Proof.
  intros g W v GI Hv. destruct (tokens_on W v) as [|[sg ts] L] eqn:E; auto. exfalso.
  assert (H : In (sg, ts) (tokens_on W v)) by (rewrite E; left; reflexivity).
  apply tokens_on_In in H as [p [H1 [_ H3]]]. apply (dget_In _ nat_eqb_ok) in H3.
  apply (in_map fst) in H3. simpl in H3.
  pose proof (gi_simple _ _ GI p H1) as N. unfold chain in N.
  assert (v <> v_start /\ v <> v_end).
  { split; intros ->.
    - inversion N; subst. apply H2. apply in_or_app. auto.
    - change (v_start :: map fst (snd p) ++ [v_end]) with ((v_start :: map fst (snd p)) ++ [v_end]) in N.
      apply NoDup_app_iff in N as [_ [_ N]]. apply (N v_end); [right; assumption | left; reflexivity]. }
  apply inner_iff in H. congruence.
Qed.

Lemma tokens_on_nonempty : forall g W v, graph_of g W -> In v (vertices g) -> inner v = true ->
  tokens_on W v <> [].
Proof.
  intros g W v GI Hv Hi. apply inner_iff in Hi as [I1 I2].
  destruct (gi_cover _ _ GI v Hv) as [H|[H|[p [ts [H1 H2]]]]]; try congruence.
  assert (In (fst p, ts) (tokens_on W v)).
  { apply tokens_on_In. exists p. split; auto. split; auto. apply (In_dget _ nat_eqb_ok); auto.
    pose proof (gi_simple _ _ GI p H1) as N. unfold chain in N. inversion N; subst.
    apply NoDup_app_iff in H4. tauto. }
  intro C. rewrite C in H. contradiction.
Qed.

Section Table.
  Variables (g : graph) (W : list wpath) (rk : vid -> nat) (byrank : list (nat * list vid)).
  Hypothesis GI : graph_of g W.
  Hypothesis Hpath : forall p, In p W -> StronglySorted (fun a b : vid * list token => rk (fst a) < rk (fst b)) (snd p).
  Hypothesis Hkeys : StronglySorted lt (map fst byrank).
  Hypothesis Hvs : forall r vs, In (r, vs) byrank ->
    NoDup vs /\ forall v, In v vs <-> In v (vertices g) /\ rk v = r.
  Hypothesis Hall : forall v, In v (vertices g) -> exists vs, In (rk v, vs) byrank.

  Definition cells_of (vs : list vid) : list (str * list token) := flat_map (tokens_on W) vs.

  Definition mkcol (nwit : nat) (rvs : nat * list vid) : column :=
    {| c_cells := cells_of (snd rvs);
       c_variant := (1 <? length (snd rvs)) || negb (length (cells_of (snd rvs)) =? nwit) |}.

  Lemma path_uniq : forall p, In p W -> NoDup (map fst (snd p)).
  Proof.
    intros p Hp. pose proof (gi_simple _ _ GI p Hp) as N. unfold chain in N. inversion N; subst.
    apply NoDup_app_iff in H2. tauto.
  Qed.

  Lemma same_rank : forall p v ts v' ts', In p W -> In (v, ts) (snd p) -> In (v', ts') (snd p) ->
    rk v = rk v' -> v = v' /\ ts = ts'.
  Proof.
    intros p v ts v' ts' Hp H1 H2 E. pose proof (Hpath p Hp) as S. clear Hp.
    induction S as [|a l S IH F]; [contradiction|].
    rewrite Forall_forall in F. destruct H1 as [->|H1], H2 as [H2|H2].
    - injection H2 as -> ->. auto.
    - apply F in H2. simpl in H2. lia.
    - subst a. apply F in H1. simpl in H1. lia.
    - auto.
  Qed.

  Lemma sigil_unique : forall p q, In p W -> In q W -> fst p = fst q -> p = q.
  Proof.
    pose proof (gi_sigla _ _ GI) as N. clear - N. induction W as [|a l IH]; intros p q Hp Hq E; [contradiction|].
    simpl in N. inversion N; subst. destruct Hp as [->|Hp], Hq as [<-|Hq]; auto.
    - exfalso. apply H1. rewrite E. apply in_map. assumption.
    - exfalso. apply H1. rewrite <- E. apply in_map. assumption.
  Qed.

  Lemma tokens_on_NoDup : forall v, NoDup (map fst (tokens_on W v)).
  Proof.
    intros v. pose proof (gi_sigla _ _ GI) as N. clear - N. unfold tokens_on.
    induction W as [|a l IH]; simpl; [constructor|]. simpl in N. inversion N; subst.
    rewrite map_app. destruct (dget Nat.eqb v (snd a)); simpl; auto.
    constructor; auto. intro C. apply H1. apply tokens_on_sigla with v. assumption.
  Qed.

  Lemma cells_NoDup : forall vs r, NoDup vs -> (forall v, In v vs -> rk v = r) ->
    NoDup (map fst (cells_of vs)).
  Proof.
    induction vs as [|v vs IH]; intros r N R; simpl; [constructor|].
    inversion N; subst. rewrite map_app. apply NoDup_app_iff. split; [apply tokens_on_NoDup|].
    split; [apply IH with r; auto; intros; apply R; right; assumption|].
    intros sg H C. apply in_map_iff in H as [[sg1 ts1] [E1 H]]. simpl in E1. subst sg1.
    apply in_map_iff in C as [[sg2 ts2] [E2 C]]. simpl in E2. subst sg2.
    apply tokens_on_In in H as [p [P1 [P2 P3]]].
    unfold cells_of in C. apply in_flat_map in C as [w [Hw C]].
    apply tokens_on_In in C as [q [Q1 [Q2 Q3]]].
    assert (p = q) by (apply sigil_unique; congruence). subst q.
    apply (dget_In _ nat_eqb_ok) in P3, Q3.
    destruct (same_rank p v ts1 w ts2) as [-> _]; auto.
    rewrite (R v), (R w); simpl; auto.
  Qed.

  Lemma cells_get : forall r vs p, In (r, vs) byrank -> In p W ->
    cell_tokens (dget str_eqb (fst p) (cells_of vs)) =
    flat_map snd (filter (fun s : vid * list token => rk (fst s) =? r) (snd p)).
  Proof.
    intros r vs p Hr Hp. destruct (Hvs r vs Hr) as [N V].
    assert (ND : NoDup (map fst (cells_of vs))).
    { apply cells_NoDup with r; auto. intros v Hv. apply V. assumption. }
    destruct (filter (fun s : vid * list token => rk (fst s) =? r) (snd p)) as [|[v ts] rest] eqn:E.
    - assert (D : dget str_eqb (fst p) (cells_of vs) = None).
      { destruct (dget str_eqb (fst p) (cells_of vs)) as [ts|] eqn:D; auto. exfalso.
        apply (dget_In _ str_eqb_ok) in D. apply in_flat_map in D as [v [Hv D]].
        apply tokens_on_In in D as [q [Q1 [Q2 Q3]]].
        assert (q = p) by (apply sigil_unique; congruence). subst q.
        apply (dget_In _ nat_eqb_ok) in Q3.
        assert (In (v, ts) (filter (fun s : vid * list token => rk (fst s) =? r) (snd p))).
        { apply filter_In. split; auto. simpl. apply Nat.eqb_eq. apply V. assumption. }
        rewrite E in H. contradiction. }
      rewrite D. reflexivity.
    - assert (I : In (v, ts) (filter (fun s : vid * list token => rk (fst s) =? r) (snd p))) by (rewrite E; left; reflexivity).
      apply filter_In in I as [I1 I2]. simpl in I2. apply Nat.eqb_eq in I2.
      assert (rest = []).
      { destruct rest as [|[v' ts'] rest']; auto. exfalso.
        assert (I' : In (v', ts') (filter (fun s : vid * list token => rk (fst s) =? r) (snd p)))
          by (rewrite E; right; left; reflexivity).
        apply filter_In in I' as [I3 I4]. simpl in I4. apply Nat.eqb_eq in I4.
        destruct (same_rank p v ts v' ts') as [-> ->]; auto; [congruence|].
        assert (NF : NoDup (map fst (filter (fun s : vid * list token => rk (fst s) =? r) (snd p)))).
        { pose proof (path_uniq p Hp) as NP. clear - NP. induction (snd p) as [|a l IH]; simpl; [constructor|].
          simpl in NP. inversion NP; subst. destruct (rk (fst a) =? r); simpl; auto.
          constructor; auto. intro C. apply H1. apply in_map_iff in C as [x [C1 C2]].
          apply filter_In in C2 as [C2 _]. rewrite <- C1. apply in_map. assumption. }
        rewrite E in NF. simpl in NF. inversion NF; subst. apply H1. left. reflexivity. }
      subst rest. simpl. rewrite app_nil_r.
      rewrite (In_dget _ str_eqb_ok (fst p) ts); auto.
      unfold cells_of. apply in_flat_map. exists v. split.
      + apply V. split; auto. apply (gi_on _ _ GI p v ts Hp I1).
      + apply tokens_on_In. exists p. split; auto. split; auto. apply (In_dget _ nat_eqb_ok); auto.
        apply path_uniq. assumption.
  Qed.

  (** A sorted list is the concatenation of its rank classes. *)
  Lemma by_classes : forall {A} (key : A -> nat) (l : list A) rs,
    StronglySorted (fun a b => key a < key b) l -> StronglySorted lt rs ->
    (forall a, In a l -> In (key a) rs) ->
    flat_map (fun r => filter (fun a => key a =? r) l) rs = l.
  Proof.
    intros A key l rs Sl Srs. revert l Sl. induction Srs as [|r rs Srs IH F]; intros l Sl HI.
    - destruct l as [|a l]; auto. exfalso. apply (HI a). left. reflexivity.
    - simpl. rewrite Forall_forall in F. destruct l as [|a l].
      + simpl. clear. induction rs; simpl; auto.
      + inversion Sl as [|? ? S1 S2]; subst. rewrite Forall_forall in S2.
        destruct (HI a (or_introl eq_refl)) as [E|E].
        * assert (F1 : filter (fun a0 => key a0 =? r) (a :: l) = [a]).
          { simpl. rewrite <- E, Nat.eqb_refl. f_equal. apply filter_none. intros b Hb.
            apply Nat.eqb_neq. apply S2 in Hb. lia. }
          rewrite F1. simpl. f_equal.
          transitivity (flat_map (fun r0 => filter (fun a0 => key a0 =? r0) l) rs); [|apply (IH l S1)].
          -- apply flat_map_ext_In. intros r' Hr'. simpl. apply F in Hr'.
             assert (key a =? r' = false) by (apply Nat.eqb_neq; lia). rewrite H. reflexivity.
          -- intros b Hb. destruct (HI b (or_intror Hb)) as [Eb|Eb]; auto. apply S2 in Hb. lia.
        * assert (F1 : filter (fun a0 => key a0 =? r) (a :: l) = []).
          { apply filter_none. intros b Hb. apply Nat.eqb_neq.
            apply F in E. destruct Hb as [->|Hb]; [lia|]. apply S2 in Hb. lia. }
          rewrite F1. cbn [app]. apply IH; auto.
          intros b [->|Hb]; auto. destruct (HI b (or_intror Hb)) as [Eb|Eb]; auto.
          apply F in E. apply S2 in Hb. lia.
  Qed.

  Lemma rank_column_spec : forall nwit r vs, In (r, vs) byrank ->
    rank_column g nwit vs = Ok (if existsb inner vs then Some (mkcol nwit (r, vs)) else None).
  Proof.
    intros nwit r vs Hr. destruct (Hvs r vs Hr) as [N V].
    destruct (foldM_inv (column_step g nwit (length vs)) (fun pre oc =>
       oc = if existsb inner pre then Some {| c_cells := cells_of pre;
              c_variant := (1 <? length vs) || negb (length (cells_of pre) =? nwit) |} else None)
       vs None eq_refl) as [b' [E P]].
    - intros pre v b [post Evs] ->. unfold column_step.
      rewrite existsb_app. simpl. rewrite orb_false_r.
      fold (inner v) in *. destruct ((v =? v_start) || (v =? v_end)) eqn:Ei.
      + assert (Iv : inner v = false) by (unfold inner; rewrite Ei; reflexivity).
        eexists. split; [reflexivity|]. rewrite Iv, orb_false_r.
        destruct (existsb inner pre) eqn:Ep; auto.
        assert (EA : cells_of (pre ++ [v]) = cells_of pre).
        { unfold cells_of. rewrite flat_map_app. simpl. rewrite (tokens_on_ends g W v GI Iv).
          simpl. apply app_nil_r. }
        rewrite EA. reflexivity.
      + assert (Iv : inner v = true) by (unfold inner; rewrite Ei; reflexivity).
        assert (Hv : In v (vertices g)).
        { apply V. rewrite Evs. apply in_or_app. right. left. reflexivity. }
        destruct (dget_Some_key _ nat_eqb_ok v (g_verts g) Hv) as [vx Hvx].
        unfold get_vertex, dgetE. rewrite Hvx. simpl. rewrite Iv, orb_true_r.
        eexists. split; [reflexivity|].
        assert (NC : NoDup (map fst (cells_of (pre ++ [v])))).
        { apply cells_NoDup with r.
          - rewrite Evs in N. change (v :: post) with ([v] ++ post) in N. rewrite app_assoc in N.
            apply NoDup_app_iff in N. tauto.
          - intros w Hw. apply V. rewrite Evs. apply in_or_app. apply in_app_or in Hw as [Hw|[<-|[]]]; simpl; auto. }
        assert (EC : put_tokens (match (if existsb inner pre then Some {| c_cells := cells_of pre;
              c_variant := (1 <? length vs) || negb (length (cells_of pre) =? nwit) |} else None) with
              | Some c => c_cells c | None => [] end) (v_tokens vx) = cells_of (pre ++ [v])).
        { rewrite (gi_tokens _ _ GI v vx Hvx).
          assert (EP : (match (if existsb inner pre then Some {| c_cells := cells_of pre;
              c_variant := (1 <? length vs) || negb (length (cells_of pre) =? nwit) |} else None) with
              | Some c => c_cells c | None => [] end) = cells_of pre).
          { destruct (existsb inner pre) eqn:Ep; auto. simpl.
            unfold cells_of. symmetry. clear - GI Ep. induction pre as [|w pre IH]; auto. simpl in *.
            apply orb_false_iff in Ep as [E1 E2]. rewrite (tokens_on_ends g W w GI E1). simpl. auto. }
          rewrite EP.
          assert (EA : cells_of (pre ++ [v]) = cells_of pre ++ tokens_on W v).
          { unfold cells_of. rewrite flat_map_app. simpl. rewrite app_nil_r. reflexivity. }
          rewrite EA in *. apply put_tokens_new. assumption. }
        rewrite EC. reflexivity.
    - unfold rank_column. rewrite E, P. unfold mkcol. simpl. reflexivity.
  Qed.

  Lemma columns_spec : forall nwit,
    construct_columns g nwit byrank =
    Ok (map (mkcol nwit) (filter (fun rvs => existsb inner (snd rvs)) byrank)).
  Proof.
    intros nwit. unfold construct_columns.
    rewrite foldM_ok_fold_left with
      (g := fun cols rvs => cols ++ (if existsb inner (snd rvs) then [mkcol nwit rvs] else [])).
    - f_equal.
      assert (G : forall l acc, fold_left (fun cols rvs => cols ++ (if existsb inner (snd rvs) then [mkcol nwit rvs] else [])) l acc
        = acc ++ map (mkcol nwit) (filter (fun rvs => existsb inner (snd rvs)) l)).
      { induction l as [|a l IH]; intros acc; simpl; [rewrite app_nil_r; reflexivity|].
        rewrite IH. destruct (existsb inner (snd a)); simpl; rewrite <- app_assoc; reflexivity. }
      apply G.
    - intros b [r vs] H. rewrite (rank_column_spec nwit r vs H). simpl.
      destruct (existsb inner vs); [reflexivity | rewrite app_nil_r; reflexivity].
  Qed.

  (** The row of a witness of the graph holds its tokens in order. *)
  Lemma row_lossless : forall nwit p, In p W ->
    row_tokens (construct_row (map (mkcol nwit) (filter (fun rvs => existsb inner (snd rvs)) byrank)) (fst p))
    = flat_map snd (snd p).
  Proof.
    intros nwit p Hp. unfold row_tokens, construct_row. simpl. rewrite map_map. simpl.
    rewrite flat_map_concat_map, map_map, <- flat_map_concat_map.
    assert (G : forall l, (forall x, In x l -> In x byrank) ->
      flat_map (fun rvs => cell_tokens (dget str_eqb (fst p) (cells_of (snd rvs))))
        (filter (fun rvs => existsb inner (snd rvs)) l) =
      flat_map (fun rvs : nat * list vid => flat_map snd (filter (fun s : vid * list token => rk (fst s) =? fst rvs) (snd p))) l).
    { induction l as [|[r vs] l IH]; intros Hl; auto. simpl.
      pose proof (Hl (r, vs) (or_introl eq_refl)) as Hr.
      rewrite <- (cells_get r vs p Hr Hp). destruct (existsb inner vs) eqn:E; simpl.
      - f_equal. apply IH. intros. apply Hl. right. assumption.
      - assert (C0 : cells_of vs = []).
        { unfold cells_of. clear - GI E. induction vs as [|w vs IH]; auto. simpl in *.
          apply orb_false_iff in E as [E1 E2]. rewrite (tokens_on_ends g W w GI E1). simpl. auto. }
        rewrite C0. simpl. apply IH. intros. apply Hl. right. assumption. }
    rewrite G by auto.
    transitivity (flat_map snd (flat_map (fun r => filter (fun s : vid * list token => rk (fst s) =? r) (snd p)) (map fst byrank))).
    - clear. induction byrank as [|a l IH]; simpl; auto. rewrite flat_map_app, IH. reflexivity.
    - f_equal. apply (by_classes (fun s : vid * list token => rk (fst s)) (snd p) (map fst byrank) (Hpath p Hp) Hkeys).
      intros [v ts] Hv. simpl. destruct (Hall v) as [vs Hvs'].
      + apply (gi_on _ _ GI p v ts Hp Hv).
      + apply (in_map fst) in Hvs'. assumption.
  Qed.
End Table.
