(** Proofs about the scorer and the collate method of the A* aligner (C83, C84). *)
From Verif Require Import Py Lib TokenModel SuffixModel IndexModel GraphModel GraphSpec GraphProof AlignModel AStarModel AStarSpec AStarProof Props_astar ScorerModel ScorerSpec IndexProof.
From Coq Require Import Sorting.Sorted.
Open Scope list_scope.
Open Scope nat_scope.

(** ** Occurrences *)
Lemma mem_nat_In : forall n l, mem_nat n l = true <-> In n l.
Proof. intros n l. unfold mem_nat. rewrite existsb_exists. split; [intros [x [A B]]; apply Nat.eqb_eq in B; subst; exact A|intros H; exists n; split; [exact H|apply Nat.eqb_refl]]. Qed.

Lemma nats_eqb_ok : forall a b, nats_eqb a b = true <-> a = b.
Proof.
  induction a as [|x a IH]; intros [|y b]; cbn; try (split; [discriminate|discriminate]); [tauto|].
  rewrite andb_true_iff, Nat.eqb_eq, IH. split; [intros [-> ->]; reflexivity|intros H; injection H; auto].
Qed.

Lemma runs_concat : forall l, concat (runs_of l) = l.
Proof.
  induction l as [|x l IH]; [reflexivity|]. cbn [runs_of]. destruct (runs_of l) as [|[|y r] rest]; cbn [concat app] in *; [congruence|congruence|].
  destruct (y =? x + 1); cbn [concat app]; congruence.
Qed.

Lemma insert_occurrence_In : forall o l x, In x (insert_occurrence o l) <-> x = o \/ In x l.
Proof. intros o. induction l as [|p l IH]; intros x; cbn [insert_occurrence]; [cbn; intuition|]. destruct (lower_end o <=? lower_end p); cbn [In]; [intuition|]. rewrite IH. intuition. Qed.
Lemma sort_occurrences_In : forall l x, In x (sort_occurrences l) <-> In x l.
Proof. induction l as [|p l IH]; intros x; [reflexivity|]. change (sort_occurrences (p :: l)) with (insert_occurrence p (sort_occurrences l)). rewrite insert_occurrence_In, IH. cbn. intuition. Qed.

Lemma occurrence_In : forall range bs o, In o (witness_occurrences range bs) ->
  In (oc_block o) bs /\ forall x, In x (oc_range o) -> In x (oc_block o) /\ In x range.
Proof.
  intros range bs o H. unfold witness_occurrences in H. rewrite sort_occurrences_In in H. apply in_flat_map in H as [b [B H]]. unfold block_occurrences in H. apply in_map_iff in H as [r [<- R]].
  cbn [oc_block oc_range]. split; [exact B|]. intros x X. assert (C : In x (concat (runs_of (filter (fun n => mem_nat n range) b)))) by (apply in_concat; eauto).
  rewrite runs_concat in C. apply filter_In in C as [C1 C2]. apply mem_nat_In in C2. auto.
Qed.
Lemma occurrence_of : forall range bs b x, In b bs -> In x b -> In x range -> exists o, In o (witness_occurrences range bs) /\ oc_block o = b /\ In x (oc_range o).
Proof.
  intros range bs b x B X R. assert (C : In x (concat (runs_of (filter (fun n => mem_nat n range) b)))) by (rewrite runs_concat; apply filter_In; rewrite mem_nat_In; auto).
  apply in_concat in C as [r [R1 R2]]. exists {| oc_range := r; oc_block := b |}. split; [|auto]. unfold witness_occurrences. rewrite sort_occurrences_In. apply in_flat_map. exists b. split; [exact B|].
  unfold block_occurrences. apply in_map_iff. exists r. auto.
Qed.

(** ** Tokens and their occurrences *)
Definition put_all (counter k : nat) (occs : list occurrence) (m : list (nat * occurrence)) :=
  fold_left (fun m o => if mem_nat counter (oc_range o) then dset Nat.eqb k o m else m) occs m.

Lemma put_all_other : forall counter k occs m k', k' <> k -> dget Nat.eqb k' (put_all counter k occs m) = dget Nat.eqb k' m.
Proof.
  intros counter k. induction occs as [|o occs IH]; intros m k' N; [reflexivity|]. cbn [put_all fold_left]. fold (put_all counter k occs (if mem_nat counter (oc_range o) then dset Nat.eqb k o m else m)).
  rewrite IH by exact N. destruct (mem_nat counter (oc_range o)); [apply (dget_set_other _ nat_eqb_ok); auto|reflexivity].
Qed.
Lemma put_all_same : forall counter k occs m o, dget Nat.eqb k (put_all counter k occs m) = Some o ->
  dget Nat.eqb k m = Some o \/ (In o occs /\ In counter (oc_range o)).
Proof.
  intros counter k. induction occs as [|p occs IH]; intros m o H; [left; exact H|]. cbn [put_all fold_left] in H. apply IH in H as [H|[H1 H2]]; [|right; split; [right|]; assumption].
  destruct (mem_nat counter (oc_range p)) eqn:E; [|left; exact H]. rewrite (dget_set_same _ nat_eqb_ok) in H. injection H as <-. right. split; [left; reflexivity|apply mem_nat_In; exact E].
Qed.
Lemma put_all_some : forall counter k occs m, (exists o, dget Nat.eqb k m = Some o) \/ (exists o, In o occs /\ In counter (oc_range o)) -> exists o, dget Nat.eqb k (put_all counter k occs m) = Some o.
Proof.
  intros counter k. induction occs as [|p occs IH]; intros m [H|[o [H1 H2]]]; [exact H|destruct H1|..]; cbn [put_all fold_left]; apply IH.
  - left. destruct (mem_nat counter (oc_range p)); [eexists; apply (dget_set_same _ nat_eqb_ok)|exact H].
  - destruct H1 as [->|H1]; [left|right; eauto]. apply mem_nat_In in H2. rewrite H2. eexists. apply (dget_set_same _ nat_eqb_ok).
Qed.

Lemma put_all_keys : forall counter k occs m x, In x (map fst (put_all counter k occs m)) -> x = k \/ In x (map fst m).
Proof.
  intros counter k. induction occs as [|p occs IH]; intros m x H; [right; exact H|]. cbn [put_all fold_left] in H. apply IH in H as [H|H]; [left; exact H|].
  destruct (mem_nat counter (oc_range p)); [|right; exact H]. apply (dset_In_key _ nat_eqb_ok) in H as [->|H]; auto.
Qed.

(** The dictionary of a witness whose tokens stand at [counter], [counter + 1], ... *)
Lemma tokens_to_get : forall ts counter occs m k o, map tk_pos ts = seq counter (length ts) ->
  dget Nat.eqb k (tokens_to_occurrences ts counter occs m) = Some o ->
  dget Nat.eqb k m = Some o \/ (In o occs /\ In k (oc_range o)).
Proof.
  induction ts as [|t ts IH]; intros counter occs m k o P H; [left; exact H|]. cbn [map length seq] in P. injection P as P0 P. cbn [tokens_to_occurrences] in H.
  rewrite Nat.add_1_r in H. apply IH in H; [|exact P]. destruct H as [H|H]; [|right; exact H]. fold (put_all counter (tk_pos t) occs m) in H. destruct (Nat.eq_dec k (tk_pos t)) as [->|N].
  - apply put_all_same in H. rewrite P0 in *. exact H.
  - rewrite put_all_other in H by exact N. left. exact H.
Qed.
Lemma tokens_to_keep : forall ts counter occs m k, (exists o, dget Nat.eqb k m = Some o) -> exists o, dget Nat.eqb k (tokens_to_occurrences ts counter occs m) = Some o.
Proof.
  induction ts as [|t ts IH]; intros counter occs m k H; [exact H|]. cbn [tokens_to_occurrences]. apply IH. fold (put_all counter (tk_pos t) occs m). destruct (Nat.eq_dec k (tk_pos t)) as [->|N].
  - apply put_all_some. left. exact H.
  - rewrite put_all_other by exact N. exact H.
Qed.
Lemma tokens_to_some : forall ts counter occs m t o, map tk_pos ts = seq counter (length ts) -> In t ts -> In o occs -> In (tk_pos t) (oc_range o) ->
  exists o', dget Nat.eqb (tk_pos t) (tokens_to_occurrences ts counter occs m) = Some o'.
Proof.
  induction ts as [|t0 ts IH]; intros counter occs m t o P T O R; [destruct T|]. cbn [map length seq] in P. injection P as P0 P. cbn [tokens_to_occurrences]. destruct T as [->|T].
  - apply tokens_to_keep. fold (put_all counter (tk_pos t) occs m). apply put_all_some. right. exists o. rewrite P0 in R. auto.
  - rewrite Nat.add_1_r. eapply IH; eassumption.
Qed.

Lemma update_get : forall {V} (m d : list (nat * V)) k v, dget Nat.eqb k (fold_left (fun d '(k, o) => dset Nat.eqb k o d) m d) = Some v ->
  In (k, v) m \/ dget Nat.eqb k d = Some v.
Proof.
  intros V. induction m as [|[k0 v0] m IH]; intros d k v H; [right; exact H|]. cbn [fold_left] in H. apply IH in H as [H|H]; [left; right; exact H|].
  destruct (Nat.eq_dec k0 k) as [->|N]; [rewrite (dget_set_same _ nat_eqb_ok) in H; injection H as <-; left; left; reflexivity|].
  rewrite (dget_set_other _ nat_eqb_ok) in H by auto. right. exact H.
Qed.
Lemma update_keeps : forall {V} (m d : list (nat * V)) k, (In k (map fst m) \/ exists v, dget Nat.eqb k d = Some v) ->
  exists v, dget Nat.eqb k (fold_left (fun d '(k, o) => dset Nat.eqb k o d) m d) = Some v.
Proof.
  intros V. induction m as [|[k0 v0] m IH]; intros d k H; [destruct H as [[]|H]; exact H|]. cbn [fold_left]. apply IH. cbn [map fst In] in H.
  destruct (Nat.eq_dec k0 k) as [->|N]; [right; eexists; apply (dget_set_same _ nat_eqb_ok)|]. destruct H as [[H|H]|H]; [congruence|left; exact H|right]. rewrite (dget_set_other _ nat_eqb_ok) by auto. exact H.
Qed.

(** The keys of the dictionary built for a witness occur once, with the value found. *)
Lemma put_all_NoDup : forall counter k occs m, NoDup (map fst m) -> NoDup (map fst (put_all counter k occs m)).
Proof.
  intros counter k. induction occs as [|p occs IH]; intros m H; [exact H|]. cbn [put_all fold_left]. apply IH. destruct (mem_nat counter (oc_range p)); [apply (dset_NoDup _ nat_eqb_ok)|]; exact H.
Qed.
Lemma tokens_to_NoDup : forall ts counter occs m, NoDup (map fst m) -> NoDup (map fst (tokens_to_occurrences ts counter occs m)).
Proof. induction ts as [|t ts IH]; intros counter occs m H; [exact H|]. cbn [tokens_to_occurrences]. apply IH. fold (put_all counter (tk_pos t) occs m). apply put_all_NoDup. exact H. Qed.

(** What a scorer knows after some witnesses were prepared. *)
Section Prepared.
  Variables (c : collation) (ti : tindex).
  Hypothesis IX : index_ok c ti.

  Definition knows (bs : list (list nat)) (ws : list iwitness) (sc : scorer) : Prop :=
    sr_blocks sc = bs /\
    (forall k o, dget Nat.eqb k (sr_map sc) = Some o -> In (oc_block o) bs /\ In k (oc_block o) /\ exists w t, In w ws /\ In t (iw_toks w) /\ tk_pos t = k) /\
    (forall w t b, In w ws -> In t (iw_toks w) -> In b bs -> In (tk_pos t) b -> exists o, dget Nat.eqb (tk_pos t) (sr_map sc) = Some o).

  Lemma wit_start : forall w, In w (ti_wits ti) -> exists p, map tk_pos (iw_toks w) = seq p (length (iw_toks w)) /\ get_range_for_witness ti (iw_sigil w) = Ok (seq p (length (iw_toks w))) /\
    aget (seq p (length (iw_toks w))) 0 = Ok p.
  Proof.
    intros w I. destruct (ix_consecutive c ti IX w I) as [p [P2 P1]]. exists p. rewrite (ix_range c ti IX w I). split; [exact P2|]. split; [f_equal; exact P2|].
    apply aget_ok. destruct (length (iw_toks w)) eqn:E; [|reflexivity]. exfalso. apply length_zero_iff_nil in E. exact (P1 E).
  Qed.

  Lemma prepare_knows : forall bs ws sc w, bs <> [] -> In w (ti_wits ti) -> knows bs ws sc -> exists sc', prepare_witness ti sc w = Ok sc' /\ knows bs (ws ++ [w]) sc'.
  Proof.
    intros bs ws sc w NB I [K1 [K2 K3]]. destruct (wit_start w I) as [p [P1 [P2 P3]]]. unfold prepare_witness. rewrite P2, K1. cbn [bind].
    replace (match bs with [] => select_blocks ti | l :: l0 => Ok (l :: l0) end) with (Ok bs) by (destruct bs; [congruence|reflexivity]). cbn [bind]. rewrite P3. cbn [bind].
    set (occs := witness_occurrences (seq p (length (iw_toks w))) bs). set (m := tokens_to_occurrences (iw_toks w) p occs []).
    assert (ND : NoDup (map fst m)) by (apply tokens_to_NoDup; constructor).
    eexists. split; [reflexivity|]. split; [reflexivity|]. cbn [sr_map]. split.
    - intros k o H. apply update_get in H as [H|H].
      + apply (In_dget _ nat_eqb_ok) in H; [|exact ND]. apply tokens_to_get in H; [|exact P1]. destruct H as [H|[H1 H2]]; [discriminate H|]. apply occurrence_In in H1 as [H0 H1]. destruct (H1 k H2) as [H3 H4].
        split; [exact H0|]. split; [exact H3|]. rewrite <- P1 in H4. apply in_map_iff in H4 as [t [T1 T2]]. exists w, t. split; [apply in_or_app; right; left; reflexivity|auto].
      + destruct (K2 k o H) as [A [B [w' [t [W [T E]]]]]]. split; [exact A|]. split; [exact B|]. exists w', t. split; [apply in_or_app; left; exact W|auto].
    - intros w' t b W T B X. apply update_keeps. apply in_app_or in W as [W|[<-|[]]].
      + right. eapply K3; eassumption.
      + left. assert (R : In (tk_pos t) (seq p (length (iw_toks w)))) by (rewrite <- P1; apply in_map; exact T).
        destruct (occurrence_of _ bs b (tk_pos t) B X R) as [o [O1 [O2 O3]]]. destruct (tokens_to_some (iw_toks w) p occs [] t o P1 T O1 O3) as [o' O'].
        apply (dget_In _ nat_eqb_ok) in O'. apply (in_map fst) in O'. exact O'.
  Qed.

  Lemma all_prepared : forall bs ws' ws sc, bs <> [] -> incl ws' (ti_wits ti) -> knows bs ws sc -> exists sc', foldM (prepare_witness ti) ws' sc = Ok sc' /\ knows bs (ws ++ ws') sc'.
  Proof.
    intros bs. induction ws' as [|w ws' IH]; intros ws sc NB I K; [exists sc; rewrite app_nil_r; auto|].
    destruct (prepare_knows bs ws sc w NB (I w (or_introl eq_refl)) K) as [sc1 [E1 K1]]. destruct (IH (ws ++ [w]) sc1 NB (fun x X => I x (or_intror X)) K1) as [sc2 [E2 K2]].
    exists sc2. cbn [foldM]. rewrite E1. cbn [bind]. split; [exact E2|]. rewrite <- app_assoc in K2. exact K2.
  Qed.

  Lemma apart_same : forall bs b b' x, apart bs -> In b bs -> In b' bs -> In x b -> In x b' -> b = b'.
  Proof.
    intros bs b b' x A B B' X X'. apply In_nth_error in B as [i I]. apply In_nth_error in B' as [j J]. pose proof (A i j b b' x I J X X') as <-. congruence.
  Qed.

  Lemma match_known : forall bs ws sc ta tb wa wb, apart bs -> knows bs ws sc -> In wa ws -> In wb ws -> In ta (iw_toks wa) -> In tb (iw_toks wb) ->
    (scorer_match None sc ta tb = 0%Z <-> in_one_block bs (tk_pos ta) (tk_pos tb)).
  Proof.
    intros bs ws sc ta tb wa wb AP [K1 [K2 K3]] A B TA TB. unfold scorer_match. split.
    - destruct (dget Nat.eqb (tk_pos ta) (sr_map sc)) as [oa|] eqn:EA; [|discriminate]. destruct (dget Nat.eqb (tk_pos tb) (sr_map sc)) as [ob|] eqn:EB; [|discriminate].
      destruct (nats_eqb (oc_block oa) (oc_block ob)) eqn:E; [|discriminate]. intros _. apply nats_eqb_ok in E. destruct (K2 _ _ EA) as [A1 [A2 _]]. destruct (K2 _ _ EB) as [B1 [B2 _]].
      exists (oc_block oa). rewrite <- E in B2. auto.
    - intros [b [B0 [B1 B2]]]. destruct (K3 wa ta b A TA B0 B1) as [oa EA]. destruct (K3 wb tb b B TB B0 B2) as [ob EB]. rewrite EA, EB.
      destruct (K2 _ _ EA) as [A1 [A2 _]]. destruct (K2 _ _ EB) as [C1 [C2 _]].
      rewrite (apart_same bs _ _ _ AP A1 B0 A2 B1), (apart_same bs _ _ _ AP C1 B0 C2 B2). rewrite (proj2 (nats_eqb_ok b b) eq_refl). reflexivity.
  Qed.
End Prepared.

(** ** Merging without further assumptions about the alignment *)
Lemma reading_add : forall vx sg t sg', match dget str_eqb sg' (v_tokens (vertex_add_token vx sg t)) with Some l => l | None => [] end =
  match dget str_eqb sg' (v_tokens vx) with Some l => l | None => [] end ++ (if str_eqb sg sg' then [t] else []).
Proof.
  intros vx sg t sg'. unfold vertex_add_token. cbn [v_tokens]. destruct (str_eqb sg sg') eqn:E.
  - apply str_eqb_ok in E. subst sg'. destruct (dget str_eqb sg (v_tokens vx)); rewrite (dget_set_same _ str_eqb_ok); reflexivity.
  - rewrite app_nil_r. apply str_eqb_neq in E. destruct (dget str_eqb sg (v_tokens vx)); rewrite (dget_set_other _ str_eqb_ok) by exact E; reflexivity.
Qed.
Definition reading_in (vs : list (vid * vertex)) (sg : str) (v : vid) : list token :=
  match dget Nat.eqb v vs with Some vx => match dget str_eqb sg (v_tokens vx) with Some l => l | None => [] end | None => [] end.

Lemma vputs_reading : forall sg tvs vs sg' v, sg <> [] ->
  reading_in (vputs sg tvs vs) sg' v = reading_in vs sg' v ++ (if str_eqb sg sg' then map fst (filter (fun tv => snd tv =? v) tvs) else []).
Proof.
  intros sg. induction tvs as [|[t u] tvs IH]; intros vs sg' v N; [cbn; destruct (str_eqb sg sg'); rewrite app_nil_r; reflexivity|].
  cbn [vputs fold_left]. fold (vputs sg tvs (vput sg vs (t, u))). rewrite IH by exact N.
  assert (Q : reading_in (vput sg vs (t, u)) sg' v = reading_in vs sg' v ++ (if str_eqb sg sg' then (if u =? v then [t] else []) else [])).
  { unfold reading_in at 1. rewrite vput_get. destruct (u =? v) eqn:E.
    - apply Nat.eqb_eq in E. subst u. unfold reading_in. destruct (dget Nat.eqb v vs) as [vx|].
      + apply reading_add.
      + unfold new_vertex. cbn [v_tokens]. destruct sg as [|a sg]; [congruence|]. cbn [dget]. destruct (str_eqb (a :: sg) sg') eqn:F.
        * apply str_eqb_ok in F. subst sg'. rewrite str_eqb_refl. reflexivity.
        * destruct (str_eqb sg' (a :: sg)) eqn:G; [|reflexivity]. apply str_eqb_ok in G. subst sg'. rewrite str_eqb_refl in F. discriminate.
    - destruct (str_eqb sg sg'); rewrite app_nil_r; reflexivity. }
  rewrite Q, <- app_assoc. f_equal. destruct (str_eqb sg sg'); [|reflexivity]. cbn [filter map snd]. destruct (u =? v); reflexivity.
Qed.

Lemma conns_keys : forall lbl ps es e, In e (map fst (conns lbl ps es)) <-> In e ps \/ In e (map fst es).
Proof.
  intros lbl. induction ps as [|p ps IH]; intros es e; [cbn; intuition|]. cbn [conns fold_left]. fold (conns lbl ps (conn lbl es p)). rewrite IH. cbn [In].
  assert (Q : In e (map fst (conn lbl es p)) <-> p = e \/ In e (map fst es)).
  { unfold conn. destruct (dget edge_eqb p es) eqn:E.
    - rewrite (dset_In_key _ edge_eqb_ok). intuition.
    - rewrite map_app, in_app_iff. cbn. intuition. }
  rewrite Q. intuition.
Qed.

Lemma assign_nth : forall aligned ts next i t v, nth_error ts i = Some t -> nth_error (assign aligned next ts) i = Some v ->
  dget Nat.eqb (tk_pos t) aligned = Some v \/ (dget Nat.eqb (tk_pos t) aligned = None /\ next <= v).
Proof.
  intros aligned. induction ts as [|t0 ts IH]; intros next [|i] t v T V; try discriminate; cbn [nth_error] in T; cbn [assign] in V.
  - injection T as ->. destruct (dget Nat.eqb (tk_pos t) aligned) eqn:E; cbn in V; injection V as <-; [left; reflexivity|right; split; [reflexivity|lia]].
  - destruct (dget Nat.eqb (tk_pos t0) aligned); cbn [nth_error] in V; destruct (IH _ _ _ _ T V) as [H|[H1 H2]]; auto; right; split; auto; lia.
Qed.

Lemma snd_combine : forall {A B} (l : list A) (l' : list B), length l' = length l -> map snd (combine l l') = l'.
Proof. intros A B. induction l as [|a l IH]; intros [|b l'] L; cbn in *; try reflexivity; try lia. f_equal. apply IH. lia. Qed.
Lemma in_combine_nth : forall (ts : list token) (path : list vid) i t v, nth_error ts i = Some t -> nth_error path i = Some v -> In (tk_pos t, v) (combine (map tk_pos ts) path).
Proof. induction ts as [|t0 ts IH]; intros [|p path] [|i] t v T V; try discriminate; cbn in *; [injection T as ->; injection V as ->; left; reflexivity|right; eapply IH; eassumption]. Qed.

Lemma merge_threads : forall g sg ts aligned,
  (forall v, In v (vertices g) -> v < g_next g) -> sg <> [] -> NoDup (map tk_pos ts) -> (forall v, reading_on g sg v = []) ->
  (forall t v, In t ts -> dget Nat.eqb (tk_pos t) aligned = Some v -> In v (vertices g)) ->
  exists g' new, merge g sg ts aligned = Ok (g', new) /\ threaded g' sg ts (assign aligned (g_next g) ts) /\
    (forall sg' v, sg' <> sg -> reading_on g' sg' v = reading_on g sg' v) /\
    (forall u v, edge g u v -> edge g' u v) /\ incl (vertices g) (vertices g') /\ (forall v, In v (vertices g') -> v < g_next g') /\
    (forall k v, In (k, v) new -> In v (vertices g')) /\
    (forall t, In t ts -> dget Nat.eqb (tk_pos t) aligned = None -> In (tk_pos t) (map fst new)).
Proof.
  intros g sg ts aligned HB HS HN HR HA. destruct (merge_tokens_spec ts g sg aligned v_start [] HB HA HN) as [g1 [last1 [t2v1 [R1 [R2 [R3 [R4 [R5 [R6 [R7 R8]]]]]]]]]]; [intros t _ []|].
  set (path := assign aligned (g_next g) ts) in *. assert (LP : length path = length ts) by apply assign_length.
  assert (VI : forall v, In v (vertices g1) <-> In v path \/ In v (vertices g)).
  { intros v. unfold vertices at 1. rewrite R4, vputs_In_key. replace (map snd (combine ts path)) with path; [reflexivity|]. symmetry. apply snd_combine. exact LP. }
  exists (connect g1 last1 v_end sg), t2v1. split; [unfold merge; rewrite R1; reflexivity|].
  assert (ED : forall e, In e (edge_pairs (connect g1 last1 v_end sg)) <-> e = (last1, v_end) \/ In e (pairs (v_start :: path)) \/ In e (edge_pairs g)).
  { intros e. unfold edge_pairs. rewrite connect_edges. change (conn sg (g_edges g1) (last1, v_end)) with (conns sg [(last1, v_end)] (g_edges g1)). rewrite conns_keys, R3, conns_keys. cbn [In]. intuition. }
  split; [|split; [|split; [|split; [|split; [|split]]]]].
  - split; [exact LP|]. split; [|split].
    + intros v. change (reading_on (connect g1 last1 v_end sg) sg v) with (reading_in (g_verts g1) sg v). rewrite R4, vputs_reading by exact HS. rewrite str_eqb_refl.
      change (reading_in (g_verts g) sg v) with (reading_on g sg v). rewrite HR. reflexivity.
    + intros u v P. unfold edge. rewrite ED. change (v_start :: path ++ [v_end]) with ((v_start :: path) ++ [v_end]) in P.
      destruct (exists_last (l := v_start :: path) ltac:(discriminate)) as [l0 [x X]]. rewrite X, <- app_assoc in P. cbn [app] in P. rewrite pairs_app in P. apply in_app_or in P as [P|P].
      * right. left. rewrite X. exact P.
      * left. cbn in P. destruct P as [P|[]]. injection P as <- <-. f_equal. rewrite R2. rewrite <- (last_cons path v_start v_start), X. rewrite last_last. reflexivity.
    + intros v V. change (In v (vertices g1)). apply VI. left. exact V.
  - intros sg' v N. change (reading_in (g_verts g1) sg' v = reading_in (g_verts g) sg' v). rewrite R4, vputs_reading by exact HS.
    destruct (str_eqb sg sg') eqn:E; [apply str_eqb_ok in E; congruence|]. apply app_nil_r.
  - intros u v E. unfold edge. rewrite ED. auto.
  - intros v V. change (In v (vertices g1)). apply VI. right. exact V.
  - exact R7.
  - intros k v H. change (In v (vertices g1)). apply VI. left. rewrite R8 in H. cbn [app] in H. apply filter_In in H as [H _]. apply in_combine_r in H. exact H.
  - intros t T N. rewrite R8. cbn [app]. apply In_nth_error in T as [i T]. destruct (nth_error path i) as [v|] eqn:V; [|apply nth_error_None in V; assert (i < length ts) by (apply nth_error_Some; congruence); lia].
    apply in_map_iff. exists (tk_pos t, v). split; [reflexivity|]. apply filter_In. split.
    + eapply in_combine_nth; eassumption.
    + cbn [fst]. unfold dmem. rewrite N. reflexivity.
Qed.

(** ** The superbase *)
Lemma stretch_nth : forall {T} (l : list T) i j x, In x (stretch l i j) -> exists k, nth_error l k = Some x /\ i <= k /\ k < j.
Proof.
  intros T l i j x H. unfold stretch in H. apply In_nth_error in H as [n H]. rewrite nth_error_skipn in H. assert (L : i + n < length (firstn j l)) by (apply nth_error_Some; congruence).
  rewrite firstn_length in L. rewrite nth_error_firstn in H. destruct (i + n <? j) eqn:E; [|apply Nat.ltb_ge in E; lia]. exists (i + n). split; [exact H|]. lia.
Qed.
Lemma woven_In : forall {T} pairs (a b : list T) i j x, StronglySorted (fun p q => fst p <= fst q) pairs -> Forall (fun p => j <= S (fst p)) pairs -> In x (woven a b i j pairs) ->
  In x a \/ exists k, nth_error b k = Some x /\ j <= k /\ ~ In k (map fst pairs).
Proof.
  intros T. induction pairs as [|[j' i'] pairs IH]; intros a b i j x SS FA H; cbn [woven] in H.
  - apply in_app_or in H as [H|H]; apply stretch_nth in H as [k [H1 [H2 H3]]]; [left; eapply nth_error_In; exact H1|right; exists k; auto].
  - apply StronglySorted_inv in SS as [SS F]. rewrite !in_app_iff in H. destruct H as [H|[H|[H|H]]].
    + apply stretch_nth in H as [k [H _]]. left. eapply nth_error_In. exact H.
    + apply stretch_nth in H as [k [H1 [H2 H3]]]. right. exists k. split; [exact H1|]. split; [exact H2|]. cbn [map fst In]. intros [->|C]; [lia|]. apply in_map_iff in C as [q [<- C]]. rewrite Forall_forall in F. specialize (F q C). cbn [fst] in F. lia.
    + apply stretch_nth in H as [k [H _]]. left. eapply nth_error_In. exact H.
    + apply IH in H; [|exact SS|rewrite Forall_forall in *; intros q Q; specialize (F q Q); cbn [fst] in F; lia]. destruct H as [H|[k [H1 [H2 H3]]]]; [left; exact H|]. right. exists k. split; [exact H1|].
      inversion FA; subst. cbn [fst] in *. split; [lia|]. cbn [map fst In]. intros [->|C]; [lia|contradiction].
Qed.

(** ** collate *)
Section Collate.
  Variable SC : Type.
  Variable prep : SC -> iwitness -> res SC.
  Variable mf : SC -> token -> token -> Z.

  Record holds (st : acollate SC) (done : list iwitness) : Prop := {
    h_bound : forall v, In v (vertices (ac_graph SC st)) -> v < g_next (ac_graph SC st);
    h_thread : forall w, In w done -> exists path, threaded (ac_graph SC st) (iw_sigil w) (iw_toks w) path;
    h_other : forall sg v, ~ In sg (map iw_sigil done) -> reading_on (ac_graph SC st) sg v = [];
    h_t2v : forall k v, dget Nat.eqb k (ac_t2v SC st) = Some v -> In v (vertices (ac_graph SC st));
    h_base : forall t, In t (ac_superbase SC st) -> exists v, dget Nat.eqb (tk_pos t) (ac_t2v SC st) = Some v
  }.

  Lemma alignment_ok : forall sb ts t2v pairs, (forall t, In t sb -> exists v, dget Nat.eqb (tk_pos t) t2v = Some v) ->
    Forall (fun p => exists b a, nth_error ts (fst p) = Some b /\ nth_error sb (snd p) = Some a) pairs ->
    exists al, alignment_of sb ts t2v pairs = Ok al /\
      (forall k v, dget Nat.eqb k al = Some v -> (exists k', dget Nat.eqb k' t2v = Some v) /\ exists i t, In i (map fst pairs) /\ nth_error ts i = Some t /\ tk_pos t = k).
  Proof.
    intros sb ts t2v pairs HB F. unfold alignment_of.
    assert (G : forall pre al0, Forall (fun p => exists b a, nth_error ts (fst p) = Some b /\ nth_error sb (snd p) = Some a) pairs ->
      (forall k v, dget Nat.eqb k al0 = Some v -> (exists k', dget Nat.eqb k' t2v = Some v) /\ exists i t, In i (map fst pre) /\ nth_error ts i = Some t /\ tk_pos t = k) ->
      exists al, foldM (fun al '(pb, pa) => ta <- aget sb pa ;; tb <- aget ts pb ;; v <- dgetE Nat.eqb (tk_pos ta) t2v ;; Ok (dset Nat.eqb (tk_pos tb) v al)) pairs al0 = Ok al /\
      (forall k v, dget Nat.eqb k al = Some v -> (exists k', dget Nat.eqb k' t2v = Some v) /\ exists i t, In i (map fst (pre ++ pairs)) /\ nth_error ts i = Some t /\ tk_pos t = k)).
    { clear F. induction pairs as [|[pb pa] pairs IH]; intros pre al0 F H; [exists al0; rewrite app_nil_r; auto|]. inversion F as [|? ? [b [a [B A]]] F']; subst. cbn [fst snd] in *.
      destruct (HB a (nth_error_In _ _ A)) as [v V]. cbn [foldM]. rewrite (proj2 (aget_ok _ _ _) A). cbn [bind]. rewrite (proj2 (aget_ok _ _ _) B). cbn [bind]. rewrite (proj2 (dgetE_ok _ _ _ _) V). cbn [bind].
      destruct (IH (pre ++ [(pb, pa)]) (dset Nat.eqb (tk_pos b) v al0) F') as [al [E1 E2]].
      - intros k v' G. destruct (Nat.eq_dec (tk_pos b) k) as [<-|N].
        + rewrite (dget_set_same _ nat_eqb_ok) in G. injection G as <-. split; [eauto|]. exists pb, b. rewrite map_app, in_app_iff. cbn. auto.
        + rewrite (dget_set_other _ nat_eqb_ok) in G by auto. destruct (H k v' G) as [G1 [i [t [G2 G3]]]]. split; [exact G1|]. exists i, t. rewrite map_app, in_app_iff. auto.
      - exists al. split; [exact E1|]. rewrite <- app_assoc in E2. exact E2. }
    destruct (G [] [] F) as [al [E1 E2]]; [intros k v H; discriminate H|]. exists al. auto.
  Qed.

  Lemma nth_pos_inj : forall (ts : list token) i j a b, NoDup (map tk_pos ts) -> nth_error ts i = Some a -> nth_error ts j = Some b -> tk_pos a = tk_pos b -> i = j.
  Proof.
    intros ts i j a b N A B E. assert (Q : nth_error (map tk_pos ts) i = nth_error (map tk_pos ts) j) by (rewrite (map_nth_error tk_pos i ts A), (map_nth_error tk_pos j ts B), E; reflexivity).
    eapply (proj1 (NoDup_nth_error (map tk_pos ts)) N); [|exact Q]. rewrite map_length. apply nth_error_Some. congruence.
  Qed.

  Lemma step_holds : forall st done w sc, holds st done -> ~ In (iw_sigil w) (map iw_sigil done) -> iw_sigil w <> [] -> NoDup (map tk_pos (iw_toks w)) ->
    prep (ac_scorer SC st) w = Ok sc ->
    match align_astar token (mf sc) (ac_superbase SC st) (iw_toks w) with
    | Ok (pairs, sb) => exists st', astar_step SC prep mf st w = Ok st' /\ holds st' (done ++ [w]) /\ ac_superbase SC st' = sb /\ ac_scorer SC st' = sc
    | Raise e => astar_step SC prep mf st w = Raise e
    end.
  Proof.
    intros st done w sc HO NS NE ND HP. unfold astar_step. rewrite HP. cbn [bind]. destruct (align_astar token (mf sc) (ac_superbase SC st) (iw_toks w)) as [[pairs sb]|e] eqn:EA; [|reflexivity]. cbn [bind].
    destruct (C50_alignment_partial _ _ _ _ _ _ EA) as [AL SS]. pose proof (C50_superbase _ _ _ _ _ _ EA) as SB.
    destruct (alignment_ok (ac_superbase SC st) (iw_toks w) (ac_t2v SC st) pairs (h_base st done HO)) as [al [E1 E2]].
    { rewrite Forall_forall in *. intros p P. destruct (AL p P) as [b [a [B [A _]]]]. eauto. }
    rewrite E1. cbn [bind].
    destruct (merge_threads (ac_graph SC st) (iw_sigil w) (iw_toks w) al (h_bound st done HO) NE ND) as [g' [new [M1 [M2 [M3 [M4 [M5 [M6 [M7 M8]]]]]]]]].
    { intros v. apply (h_other st done HO). exact NS. }
    { intros t v _ H. destruct (E2 _ _ H) as [[k K] _]. eapply (h_t2v st done HO). exact K. }
    rewrite M1. cbn [bind]. eexists. split; [reflexivity|]. split; [|split; reflexivity]. constructor; cbn [ac_graph ac_t2v ac_superbase].
    - exact M6.
    - intros w' W. apply in_app_or in W as [W|[<-|[]]]; [|eexists; exact M2]. destruct (h_thread st done HO w' W) as [path [T1 [T2 [T3 T4]]]]. exists path. split; [exact T1|]. split; [|split].
      + intros v. rewrite M3; [apply T2|]. intros C. apply NS. rewrite <- C. apply in_map. exact W.
      + intros u v P. apply M4. apply T3. exact P.
      + intros v V. apply M5. apply T4. exact V.
    - intros sg v N. rewrite map_app, in_app_iff in N. cbn in N. rewrite M3 by (intros ->; apply N; right; left; reflexivity). apply (h_other st done HO). intros C. apply N. left. exact C.
    - intros k v H. apply update_get in H as [H|H]; [eapply M7; exact H|]. apply M5. eapply (h_t2v st done HO). exact H.
    - intros t T. apply update_keeps. rewrite SB in T. apply woven_In in T.
      + destruct T as [T|[k [K1 [_ K2]]]]; [right; apply (h_base st done HO); exact T|]. left. apply M8; [eapply nth_error_In; exact K1|].
        destruct (dget Nat.eqb (tk_pos t) al) as [v|] eqn:D; [|reflexivity]. exfalso. destruct (E2 _ _ D) as [_ [i [t' [I1 [I2 I3]]]]]. apply K2. rewrite <- (nth_pos_inj _ _ _ _ _ ND I2 K1 I3). exact I1.
      + clear - SS. induction SS as [|p l SS IH F]; constructor; [exact IH|]. rewrite Forall_forall in *. intros q Q. apply F. exact Q.
      + apply Forall_forall. intros. lia.
  Qed.
End Collate.
