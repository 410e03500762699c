(** near_matching.witnesses_on_path (C95). *)
From Verif Require Import Py Lib TokenModel SuffixModel IndexModel GraphModel NearModel TableModel ExportModel CollateModel
  GraphSpec CollateSpec MergeProof AlignerProof RankProof TableProof CollateProof ResultProof Samples.
From Coq Require Import QArith.
Open Scope list_scope.
Open Scope nat_scope.

(** The witness [k] has a token on a vertex whose rank lies strictly between [lo] and [hi]. *)
Definition between (g : graph) (r : ranking) (lo hi : nat) (k : str) : Prop :=
  exists rk vs v vx, lo < rk < hi /\ dget Nat.eqb rk (by_rank r) = Some vs /\ In v vs /\
    dget Nat.eqb v (g_verts g) = Some vx /\ In k (map fst (v_tokens vx)).

Definition add_key (a : list str) (k : str) : list str := if existsb (str_eqb k) a then a else a ++ [k].
Lemma add_key_spec : forall a k, NoDup a -> NoDup (add_key a k) /\ forall x, In x (add_key a k) <-> In x a \/ x = k.
Proof.
  intros a k N. unfold add_key. destruct (existsb (str_eqb k) a) eqn:Q.
  - apply (existsb_eqb _ str_eqb_ok) in Q. split; [exact N|]. intros x. split; [auto|]. intros [H| ->]; assumption.
  - assert (~ In k a) by (intros I; apply (existsb_eqb _ str_eqb_ok) in I; congruence). split.
    + apply NoDup_app_iff. split; [exact N|]. split; [repeat constructor; intros []|]. intros x Hx [<-|[]]. contradiction.
    + intros x. rewrite in_app_iff. cbn. intuition.
Qed.
Lemma add_keys_spec : forall l a, NoDup a -> NoDup (fold_left add_key l a) /\ forall x, In x (fold_left add_key l a) <-> In x a \/ In x l.
Proof.
  induction l as [|k l IH]; intros a N; cbn [fold_left]; [split; [exact N|]; intros x; cbn [In]; tauto|].
  destruct (add_key_spec a k N) as [N1 M1]. destruct (IH _ N1) as [N2 M2]. split; [exact N2|]. intros x. rewrite M2, M1. cbn [In]. intuition.
Qed.
Lemma vertices_keys : forall g vs acc, NoDup acc ->
  match foldM (fun acc v => vx <- get_vertex g v ;; Ok (fold_left add_key (map fst (v_tokens vx)) acc)) vs acc with
  | Ok a => NoDup a /\ (forall v, In v vs -> In v (vertices g)) /\
            forall k, In k a <-> In k acc \/ exists v vx, In v vs /\ dget Nat.eqb v (g_verts g) = Some vx /\ In k (map fst (v_tokens vx))
  | Raise e => e = KeyError /\ exists v, In v vs /\ ~ In v (vertices g)
  end.
Proof.
  intros g. induction vs as [|v vs IH]; intros acc N; cbn [foldM].
  - split; [exact N|]. split; [intros v []|]. intros k. split; [auto|]. intros [H|[v [vx [[] _]]]]. exact H.
  - unfold get_vertex, dgetE. destruct (dget Nat.eqb v (g_verts g)) as [vx|] eqn:D; cbn [bind].
    + destruct (add_keys_spec (map fst (v_tokens vx)) acc N) as [N1 M1]. specialize (IH _ N1). unfold get_vertex, dgetE in IH.
      destruct (foldM _ vs _) as [a|e].
      * destruct IH as [N2 [V M2]]. split; [exact N2|]. split.
        -- intros w [<-|I]; [|apply V; exact I]. apply (dget_In _ nat_eqb_ok) in D. apply in_map_iff. exists (v, vx). auto.
        -- intros k. rewrite M2, M1. split.
           ++ intros [[H|H]|[w [wx [H1 [H2 H3]]]]]; [left; exact H|right; exists v, vx; split; [left; reflexivity|]; auto|right; exists w, wx; split; [right; exact H1|]; auto].
           ++ intros [H|[w [wx [[<-|H1] [H2 H3]]]]]; [auto| |right; eauto]. left. right. rewrite D in H2. injection H2 as <-. exact H3.
      * destruct IH as [-> [w [H1 H2]]]. split; [reflexivity|]. exists w. split; [right; exact H1|exact H2].
    + split; [reflexivity|]. exists v. split; [left; reflexivity|]. apply (dget_None _ nat_eqb_ok). exact D.
Qed.
Lemma ranks_keys : forall g r L acc, NoDup acc ->
  match foldM (fun acc rk => vs <- dgetE Nat.eqb rk (by_rank r) ;; foldM (fun acc v => vx <- get_vertex g v ;; Ok (fold_left add_key (map fst (v_tokens vx)) acc)) vs acc) L acc with
  | Ok a => NoDup a /\ (forall rk, In rk L -> exists vs, dget Nat.eqb rk (by_rank r) = Some vs) /\
            forall k, In k a <-> In k acc \/ exists rk vs v vx, In rk L /\ dget Nat.eqb rk (by_rank r) = Some vs /\ In v vs /\ dget Nat.eqb v (g_verts g) = Some vx /\ In k (map fst (v_tokens vx))
  | Raise e => e = KeyError /\ exists rk, In rk L /\ (dget Nat.eqb rk (by_rank r) = None \/ exists vs v, dget Nat.eqb rk (by_rank r) = Some vs /\ In v vs /\ ~ In v (vertices g))
  end.
Proof.
  intros g r. induction L as [|rk L IH]; intros acc N; cbn [foldM].
  - split; [exact N|]. split; [intros rk []|]. intros k. split; [auto|]. intros [H|[rk [vs [v [vx [[] _]]]]]]. exact H.
  - unfold dgetE at 1. destruct (dget Nat.eqb rk (by_rank r)) as [vs|] eqn:D; cbn [bind].
    + pose proof (vertices_keys g vs acc N) as VK. destruct (foldM _ vs acc) as [a|e]; cbn [bind].
      * destruct VK as [N1 [_ M1]]. specialize (IH a N1). destruct (foldM _ L a) as [b|e].
        -- destruct IH as [N2 [V M2]]. split; [exact N2|]. split; [intros x [<-|I]; [eauto|apply V; exact I]|]. intros k. rewrite M2, M1. split.
           ++ intros [[H|[v [vx [H1 [H2 H3]]]]]|[x [xs [v [vx [H1 H2]]]]]]; [left; exact H|right; exists rk, vs, v, vx; split; [left; reflexivity|]; auto|].
              right. exists x, xs, v, vx. split; [right; exact H1|exact H2].
           ++ intros [H|[x [xs [v [vx [[<-|H1] [H2 [H3 H4]]]]]]]]; [auto| |right; exists x, xs, v, vx; auto].
              left. right. exists v, vx. rewrite D in H2. injection H2 as <-. auto.
        -- destruct IH as [-> [x [H1 H2]]]. split; [reflexivity|]. exists x. split; [right; exact H1|exact H2].
      * destruct VK as [-> [v [H1 H2]]]. split; [reflexivity|]. exists rk. split; [left; reflexivity|]. right. exists vs, v. auto.
    + split; [reflexivity|]. exists rk. split; [left; reflexivity|]. left. exact D.
Qed.
Lemma seq_between : forall lo hi x, In x (seq (lo + 1) (hi - (lo + 1))) <-> lo < x < hi.
Proof. intros. rewrite in_seq. lia. Qed.

(** C95: witnesses_on_path returns, without repetition, exactly the sigla of the witnesses that have
    a token on a rank strictly between the two ranks; it raises KeyError exactly if one of these
    ranks does not exist, and nothing else.  For every graph and every ranking whose vertices are in
    the graph. *)
Theorem C95_witnesses_between : forall g r lo hi, ranks_in (vertices g) r ->
  match witnesses_on_path g r lo hi with
  | Ok ks => NoDup ks /\ (forall k, In k ks <-> between g r lo hi k) /\ (forall x, lo < x < hi -> In x (map fst (by_rank r)))
  | Raise e => e = KeyError /\ exists x, lo < x < hi /\ ~ In x (map fst (by_rank r))
  end.
Proof.
  intros g r lo hi RI. unfold witnesses_on_path. pose proof (ranks_keys g r (seq (lo + 1) (hi - (lo + 1))) [] (NoDup_nil _)) as K. unfold add_key in K.
  destruct (foldM _ _ []) as [ks|e].
  - destruct K as [N [V M]]. split; [exact N|]. split.
    + intros k. rewrite M. unfold between. split.
      * intros [[]|[x [vs [v [vx [H1 H2]]]]]]. apply seq_between in H1. eauto 8.
      * intros [x [vs [v [vx [H1 H2]]]]]. right. exists x, vs, v, vx. split; [apply seq_between; exact H1|exact H2].
    + intros x Hx. destruct (V x) as [vs D]; [apply seq_between; exact Hx|]. apply (dget_In _ nat_eqb_ok) in D. apply in_map_iff. exists (x, vs). auto.
  - destruct K as [-> [x [H1 [H2|[vs [v [H2 [H3 H4]]]]]]]].
    + split; [reflexivity|]. exists x. split; [apply seq_between; exact H1|]. apply (dget_None _ nat_eqb_ok). exact H2.
    + exfalso. apply H4. apply (dget_In _ nat_eqb_ok) in H2. apply (RI x vs H2 v H3).
Qed.
Print Assumptions C95_witnesses_between.

(** The graphs and rankings collate makes are of this kind, also with near matching. *)
Theorem C95_collate : forall cc topo ratio c o g r lo hi, topo_ok topo -> good_sigla c -> collate_graph cc topo ratio c o = Ok (g, r) ->
  match witnesses_on_path g r lo hi with
  | Ok ks => NoDup ks /\ (forall k, In k ks <-> between g r lo hi k) /\ incl ks (map w_sigil c)
  | Raise e => e = KeyError /\ exists x, lo < x < hi /\ ~ In x (map fst (by_rank r))
  end.
Proof.
  intros cc topo ratio c o g r lo hi TO [ND NE] H. destruct (result_spec cc topo ratio TO c o g r ND NE H) as [ti [st [W1 [W [part RS]]]]].
  pose proof (C95_witnesses_between g r lo hi (rs_ranks _ _ _ _ _ _ _ _ _ _ _ RS)) as K. destruct (witnesses_on_path g r lo hi) as [ks|e]; [|exact K].
  destruct K as [N [M _]]. split; [exact N|]. split; [exact M|]. intros k I. apply M in I as [x [vs [v [vx [_ [_ [_ [D I]]]]]]]].
  pose proof (jo_graph _ _ _ _ _ _ (rs_joined _ _ _ _ _ _ _ _ _ _ _ RS)) as GI. rewrite (gi_tokens _ _ GI v vx) in I by exact D.
  apply in_map_iff in I as [[k' l] [E I]]. cbn [fst] in E. subst k'. apply tokens_on_In in I as [p [H1 [H2 _]]].
  rewrite <- (carries_sigla c W (rs_carries _ _ _ _ _ _ _ _ _ _ _ RS)). rewrite <- H2. apply in_map. exact H1.
Qed.
Print Assumptions C95_collate.

Example C95_example : exists g r, collate_graph ascii_cc kahn sample_ratio [words "A" ["a"; "b"; "c"]; words "B" ["a"; "c"]] (plain_options "graph") = Ok (g, r) /\
  witnesses_on_path g r 1 3 = Ok [lit "A"] /\ witnesses_on_path g r 0 3 = Ok [lit "A"; lit "B"] /\ witnesses_on_path g r 3 9 = Raise KeyError.
Proof. eexists. eexists. split; [vm_compute; reflexivity|]. split; [vm_compute; reflexivity|]. split; vm_compute; reflexivity. Qed.
