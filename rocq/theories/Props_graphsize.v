(** C100: the size of the variant graph. *)
From Verif Require Import Py Lib TokenModel SuffixModel IndexModel GraphModel AlignModel TableModel NearModel ExportModel
  CollateModel GraphSpec CollateSpec TableSpec GraphProof MergeProof AlignerProof RankProof TableProof CollateProof IndexProof StageProof
  ResultProof FactsProof IdentProof NearProof ReadProof CommonProof PairProof ExportProof SegProof OutputProof Props_collate
  TopoProof Samples SizeSpec SizeProof Props_size Props_limits.
From Coq Require Import QArith String.
Open Scope list_scope.
Open Scope nat_scope.

Definition pairs_of_paths (W : list wpath) : list (vid * vid) := flat_map (fun p => pairs (chain p)) W.
Definition vertices_of_paths (W : list wpath) : list vid := flat_map (fun p => map fst (snd p)) W.

Lemma pairs_length : forall {A} (l : list A), List.length (pairs l) = List.length l - 1.
Proof. intros A l. unfold pairs. rewrite combine_length. destruct l; [reflexivity|]. cbn [List.length tl]. lia. Qed.
Lemma path_short : forall w p, carries w p -> (forall v ts, In (v, ts) (snd p) -> ts <> []) -> List.length (snd p) <= List.length (w_toks w).
Proof.
  intros w p [_ F] N. rewrite (Forall2_len _ _ _ F). clear F. induction (snd p) as [|[v ts] l IH]; [cbn; lia|]. cbn [flat_map List.length snd]. rewrite app_length.
  pose proof (N v ts (or_introl eq_refl)) as Q. specialize (IH (fun v' ts' I => N v' ts' (or_intror I))). destruct ts; [congruence|]. cbn [List.length]. lia.
Qed.
Lemma paths_short : forall c W, Forall2 carries c W -> (forall p v ts, In p W -> In (v, ts) (snd p) -> ts <> []) ->
  List.length (vertices_of_paths W) <= all_words c /\ List.length (pairs_of_paths W) <= all_words c + List.length c.
Proof.
  intros c W F. unfold all_words, lengths, vertices_of_paths, pairs_of_paths. induction F as [|w p c W C F IH]; intros N; [cbn; lia|]. cbn [flat_map map list_sum List.length].
  rewrite !app_length, map_length, pairs_length. unfold chain at 1. cbn [List.length]. rewrite app_length, map_length. cbn [List.length].
  destruct IH as [I1 I2]; [intros q v ts Hq; apply N; right; exact Hq|]. pose proof (path_short w p C (fun v ts => N p v ts (or_introl eq_refl))). cbn [list_sum fold_right]. fold (list_sum (map (fun w => List.length (w_toks w)) c)). unfold list_sum in *. cbn [fold_right]. lia.
Qed.

Lemma graph_facts : forall cc topo ratio c o g, topo_ok topo -> good_sigla c -> collate cc topo ratio c o = Ok (OGraph g) ->
  exists W, graph_of (without_near g) W /\ Forall2 carries c W /\
    (forall p q v ts ts', In p W -> In q W -> In (v, ts) (snd p) -> In (v, ts') (snd q) -> map tk_str ts = map tk_str ts') /\
    (o_segmentation o = false -> forall p v ts, In p W -> In (v, ts) (snd p) -> exists k, ts = [k]).
Proof.
  intros cc topo ratio c o g TO [ND NE] H. destruct (collate_graph_inv cc topo ratio c o g H) as [r H1].
  destruct (result_spec cc topo ratio TO c o g r ND NE H1) as [ti [st [W0 [W [part RS]]]]]. pose proof (rs_joined _ _ _ _ _ _ _ _ _ _ _ RS) as JO. exists W.
  split; [apply (jo_graph _ _ _ _ _ _ JO)|]. split; [apply (rs_carries _ _ _ _ _ _ _ _ _ _ _ RS)|]. split.
  - intros p q v ts ts' Hp Hq A B.
    rewrite (joined_readings cc _ _ _ _ _ _ _ _ (rs_aligner _ _ _ _ _ _ _ _ _ _ _ RS) JO p v ts Hp A).
    rewrite (joined_readings cc _ _ _ _ _ _ _ _ (rs_aligner _ _ _ _ _ _ _ _ _ _ _ RS) JO q v ts' Hq B). reflexivity.
  - intros Hs p v ts Hp A. destruct (rs_plain _ _ _ _ _ _ _ _ _ _ _ RS Hs) as [_ [_ P3]].
    pose proof (joined_readings cc _ _ _ _ _ _ _ _ (rs_aligner _ _ _ _ _ _ _ _ _ _ _ RS) JO p v ts Hp A) as Q. rewrite P3 in Q.
    destruct ts as [|k [|? ?]]; try discriminate. eauto.
Qed.

(** At most a vertex for every word, besides start and end, and a step into every word and one to the end for every witness. *)
Theorem C100_size : forall cc topo ratio c o g, topo_ok topo -> good_sigla c -> collate cc topo ratio c o = Ok (OGraph g) ->
  NoDup (vertices g) /\ List.length (vertices g) <= all_words c + 2 /\
  NoDup (edge_pairs g) /\ List.length (edge_pairs g) <= all_words c + List.length c.
Proof.
  intros cc topo ratio c o g TO GS H. destruct (graph_facts cc topo ratio c o g TO GS H) as [W [GI [CA _]]].
  destruct (paths_short c W CA) as [S1 S2]; [intros p v ts Hp Hi; apply (gi_on _ _ GI p v ts Hp Hi)|].
  change (vertices g) with (vertices (without_near g)). change (edge_pairs g) with (edge_pairs (without_near g)).
  split; [apply (gi_verts _ _ GI)|]. split; [|split; [apply (gi_edges_nodup _ _ GI)|]].
  - apply Nat.le_trans with (List.length (v_start :: v_end :: vertices_of_paths W)); [|cbn [List.length]; lia]. apply NoDup_incl_length; [apply (gi_verts _ _ GI)|].
    intros v V. destruct (gi_cover _ _ GI v V) as [->|[->|[p [ts [Hp Hi]]]]]; [left; reflexivity|right; left; reflexivity|]. right. right. apply in_flat_map. exists p. split; [exact Hp|]. apply (in_map fst) in Hi. exact Hi.
  - apply Nat.le_trans with (List.length (pairs_of_paths W)); [|exact S2]. apply NoDup_incl_length; [apply (gi_edges_nodup _ _ GI)|].
    intros [u v] E. apply (graph_edge_path _ W u v GI) in E as [p [Hp P]]. apply in_flat_map. exists p. split; assumption.
Qed.
Print Assumptions C100_size.

(** If no word is shared, both bounds are reached without segmentation; with segmentation there is one vertex for every witness. *)
Lemma NoDup_flat : forall {A B} (f : A -> list B) l, NoDup l -> (forall x, In x l -> NoDup (f x)) -> (forall x y b, In x l -> In y l -> In b (f x) -> In b (f y) -> x = y) -> NoDup (flat_map f l).
Proof.
  intros A B f l N H D. induction N as [|x l Nx N IH]; [constructor|]. cbn [flat_map]. apply NoDup_app_iff. split; [|split].
  - apply H. left. reflexivity.
  - apply IH; [intros y Hy; apply H; right; exact Hy|intros y z b Hy Hz; apply D; right; assumption].
  - intros b Hb C. apply in_flat_map in C as [y [Hy C]]. apply Nx. rewrite (D x y b (or_introl eq_refl) (or_intror Hy) Hb C). exact Hy.
Qed.
Lemma paths_NoDup : forall g W, graph_of g W -> NoDup W.
Proof. intros g W GI. apply NoDup_map_inv with (f := fst). apply (gi_sigla _ _ GI). Qed.
Lemma inner_chain : forall (p : wpath) v, v <> v_start -> v <> v_end -> In v (chain p) -> In v (map fst (snd p)).
Proof. intros p v N1 N2 [Q|Q]; [congruence|]. apply in_app_or in Q as [Q|[Q|[]]]; [exact Q|congruence]. Qed.
Lemma paths_full : forall c W, Forall2 carries c W -> (forall p v ts, In p W -> In (v, ts) (snd p) -> exists k, ts = [k]) ->
  List.length (vertices_of_paths W) = all_words c /\ List.length (pairs_of_paths W) = all_words c + List.length c.
Proof.
  intros c W F. unfold all_words, lengths, vertices_of_paths, pairs_of_paths. induction F as [|w p c W C F IH]; intros N; [cbn; lia|]. cbn [flat_map map List.length].
  rewrite !app_length, map_length, pairs_length. unfold chain at 1. cbn [List.length]. rewrite app_length, map_length. cbn [List.length].
  destruct IH as [I1 I2]; [intros q v ts Hq; apply N; right; exact Hq|].
  assert (E : List.length (snd p) = List.length (w_toks w)).
  { destruct C as [_ C]. rewrite (Forall2_len _ _ _ C). clear - N. specialize (N p). assert (M : forall v ts, In (v, ts) (snd p) -> exists k, ts = [k]) by (intros; eapply N; [left; reflexivity|eassumption]). clear N.
    induction (snd p) as [|[v ts] l IH]; [reflexivity|]. cbn [flat_map List.length snd]. rewrite app_length. destruct (M v ts (or_introl eq_refl)) as [k ->]. cbn [List.length]. rewrite IH; [reflexivity|]. intros v' ts' I. apply (M v' ts' (or_intror I)). }
  unfold list_sum in *. cbn [fold_right]. lia.
Qed.
Lemma path_not_ends : forall g W p v ts, graph_of g W -> In p W -> In (v, ts) (snd p) -> v <> v_start /\ v <> v_end.
Proof.
  intros g W p v ts GI Hp Hi. pose proof (gi_simple _ _ GI p Hp) as N. unfold chain in N. apply (in_map fst) in Hi. cbn [fst] in Hi. inversion N as [|? ? N1 N2]; subst.
  split; intros ->; [apply N1; apply in_or_app; left; exact Hi|]. apply NoDup_app_iff in N2 as [_ [_ N3]]. apply (N3 _ Hi). left. reflexivity.
Qed.
Theorem C100_nothing_in_common : forall cc topo ratio c o g, topo_ok topo -> good_sigla c -> nothing_in_common c -> o_segmentation o = false ->
  collate cc topo ratio c o = Ok (OGraph g) ->
  List.length (vertices g) = all_words c + 2 /\ List.length (edge_pairs g) = all_words c + List.length c.
Proof.
  intros cc topo ratio c o g TO GS NC Os H. destruct (graph_facts cc topo ratio c o g TO GS H) as [W [GI [CA [SAME ONE]]]]. specialize (ONE Os).
  pose proof (paths_apart _ W c GI GS NC CA SAME) as AP. destruct (paths_full c W CA ONE) as [F1 F2].
  destruct (C100_size cc topo ratio c o g TO GS H) as [_ [L1 [_ L2]]]. split; apply Nat.le_antisymm; try assumption.
  - apply Nat.le_trans with (List.length (v_start :: v_end :: vertices_of_paths W)); [cbn [List.length]; lia|]. apply NoDup_incl_length.
    + assert (E : forall v, In v (vertices_of_paths W) -> v <> v_start /\ v <> v_end).
      { intros v Hv. apply in_flat_map in Hv as [p [Hp Hv]]. apply in_map_iff in Hv as [[v' ts] [<- Hv]]. exact (path_not_ends _ W p v' ts GI Hp Hv). }
      constructor; [intros [Q|Q]; [discriminate Q|]; destruct (E _ Q); congruence|]. constructor; [intros Q; destruct (E _ Q); congruence|].
      apply NoDup_flat; [apply (paths_NoDup _ W GI)| |intros p q v Hp Hq A B; exact (AP p q v Hp Hq A B)].
      intros p Hp. pose proof (gi_simple _ _ GI p Hp) as N. unfold chain in N. inversion N as [|? ? N1 N2]; subst. apply NoDup_app_iff in N2 as [N2 _]. exact N2.
    + intros v [<-|[<-|Hv]]; [apply (start_In _ W GI)|apply (end_In _ W GI)|]. apply in_flat_map in Hv as [p [Hp Hv]]. apply in_map_iff in Hv as [[v' ts] [<- Hv]]. apply (gi_on _ _ GI p v' ts Hp Hv).
  - apply Nat.le_trans with (List.length (pairs_of_paths W)); [rewrite F2; apply le_n|]. apply NoDup_incl_length.
    + apply NoDup_flat; [apply (paths_NoDup _ W GI)|intros p Hp; apply pairs_NoDup; apply (gi_simple _ _ GI p Hp)|].
      intros p q [u v] Hp Hq A B.
      assert (NEP : snd p <> []).
      { destruct (Forall2_In_r _ _ _ _ CA Hp) as [w [Hw [_ CW]]]. destruct (collate_not_empty cc topo ratio c o _ H) as [_ NE]. unfold no_empty_witness in NE. rewrite Forall_forall in NE. specialize (NE w Hw).
        intros Q. rewrite Q in CW. inversion CW as [E1|]. congruence. }
      pose proof (gi_simple _ _ GI p Hp) as N.
      assert (Vs : forall (r : wpath) x y, In r W -> In (x, y) (pairs (chain r)) -> y <> v_start).
      { intros r x y Hr P ->. pose proof (gi_simple _ _ GI r Hr) as Nr. apply pairs_In in P as [l1 [l2 E]]. unfold chain in E, Nr. destruct l1 as [|z l1]; cbn [app] in E; injection E as E1 E2.
        - inversion Nr as [|? ? K1 K2]; subst. apply K1. rewrite E2. left. reflexivity.
        - inversion Nr as [|? ? K1 K2]; subst. apply K1. rewrite E2. apply in_or_app. right. right. left. reflexivity. }
      assert (Us : forall (r : wpath) x y, In r W -> In (x, y) (pairs (chain r)) -> x <> v_end).
      { intros r x y Hr P ->. pose proof (gi_simple _ _ GI r Hr) as Nr. apply pairs_In in P as [l1 [l2 E]]. unfold chain in *. rewrite app_comm_cons in E, Nr.
        assert (X : exists l3, v_end :: y :: l2 = l3 ++ [v_end] /\ l3 <> []).
        { destruct (exists_last (l := y :: l2)) as [l3 [z E3]]; [discriminate|]. rewrite E3 in E. rewrite app_comm_cons, app_assoc in E. apply app_inj_tail in E as [_ <-]. exists (v_end :: l3). split; [rewrite E3; reflexivity|discriminate]. }
        destruct X as [l3 [X1 X2]]. rewrite E, X1 in Nr. destruct l3 as [|z l3]; [congruence|]. injection X1 as <- _.
        rewrite app_assoc in Nr. apply NoDup_app_iff in Nr as [_ [_ Nr]]. apply (Nr v_end); [apply in_or_app; right; left; reflexivity|left; reflexivity]. }
      destruct (Nat.eq_dec v v_end) as [->|NV].
      * destruct (Nat.eq_dec u v_start) as [->|NU].
        -- exfalso. apply pairs_In in A as [l1 [l2 E]]. unfold chain in E, N. destruct l1 as [|z l1]; cbn [app] in E.
           ++ injection E as E2. destruct (snd p) as [|[z zs] l]; [congruence|]. cbn [map app fst] in E2, N. injection E2 as -> E2. inversion N as [|? ? K1 K2]; subst. inversion K2 as [|? ? K3 K4]; subst. apply K3. apply in_or_app. right. left. reflexivity.
           ++ injection E as E1 E2. inversion N as [|? ? K1 K2]; subst. apply K1. rewrite E2. apply in_or_app. right. left. reflexivity.
        -- apply (AP p q u Hp Hq); (apply inner_chain; [exact NU| |]); [apply (Us p u _ Hp A)|apply (in_pairs_l _ _ _ A)|apply (Us q u _ Hq B)|apply (in_pairs_l _ _ _ B)].
      * apply (AP p q v Hp Hq); (apply inner_chain; [|exact NV|]); [apply (Vs p _ v Hp A)|apply (in_pairs_r _ _ _ A)|apply (Vs q _ v Hq B)|apply (in_pairs_r _ _ _ B)].
    + intros [u v] E. apply in_flat_map in E as [p [Hp P]]. apply (graph_edge_path _ W u v GI). exists p. split; assumption.
Qed.
Print Assumptions C100_nothing_in_common.

Example C100_example : exists c g, good_sigla c /\ nothing_in_common c /\ collate ascii_cc kahn sample_ratio c (plain_options "graph") = Ok (OGraph g) /\ List.length (vertices g) = 7.
Proof.
  exists [words "A" ["a"; "b"; "a"]; words "B" ["c"; "d"]]%string. eexists. split; [split; [repeat constructor; cbn; intuition discriminate|cbn; intuition discriminate]|].
  split; [|split; [vm_compute; reflexivity|reflexivity]].
  intros w w' t t' [<-|[<-|[]]] [<-|[<-|[]]] N H H'; cbn in *; try congruence; intuition (subst; cbn; discriminate).
Qed.
