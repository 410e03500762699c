(** C81, C82: phrase matches and transpositions. *)
From Verif Require Import Py Lib TokenModel IndexModel AlignModel GraphModel TableModel CollateModel GraphSpec CollateSpec GraphProof TopoProof RankProof ResultProof FactsProof Samples QueryModel PhraseModel PhraseSpec PhraseProof.
From Coq Require Import QArith String.
Open Scope list_scope.
Open Scope nat_scope.

(** ** C81: the phrase matches of a witness.  Every witness has exactly one division into phrases. *)
Theorem C81_phrases_exist : forall g linked tokens, NoDup (edge_pairs g) ->
  exists phs, phrased g linked tokens phs /\ forall phs', phrased g linked tokens phs' -> phs' = phs.
Proof.
  intros g linked tokens ND. exists (cut g linked tokens []). split; [apply (cut_spec g linked ND tokens)|]. intros phs' P. apply (phrased_cut g linked ND tokens phs' P).
Qed.
Print Assumptions C81_phrases_exist.

(** There are as many phrase matches as phrases, but all of them read alike: as the last
    phrase if the witness ends in it, as nothing otherwise. *)
Theorem C81_matches_partial : forall g linked tokens phs, NoDup (edge_pairs g) -> phrased g linked tokens phs ->
  List.length (phrase_matches g linked tokens) = List.length phs /\
  (forall ts t v, tokens = ts ++ [t] -> link_of linked t = Some v -> forall m, In m (phrase_matches g linked tokens) -> exists phs', phs = phs' ++ [m]) /\
  (forall ts t, tokens = ts ++ [t] -> link_of linked t = None -> forall m, In m (phrase_matches g linked tokens) -> m = []).
Proof.
  intros g linked tokens phs ND P. rewrite matches_read. rewrite (phrased_cut g linked ND tokens phs P). split; [apply repeat_length|]. split.
  - intros ts t v -> L m Hm. rewrite map_app in Hm. cbn [map] in Hm. rewrite last_snoc, L in Hm. apply repeat_spec in Hm.
    assert (NE : cut g linked (ts ++ [t]) [] <> []) by (apply (cut_linked g linked _ _ v); rewrite map_app; cbn [map]; rewrite last_snoc; exact L).
    destruct (exists_last NE) as [l [x E]]. rewrite E, last_snoc in Hm. exists l. rewrite E, Hm. reflexivity.
  - intros ts t -> L m Hm. rewrite map_app in Hm. cbn [map] in Hm. rewrite last_snoc, L in Hm. apply (repeat_spec _ _ _ Hm).
Qed.
Print Assumptions C81_matches_partial.

(** One phrase, up to the end of the witness: the matches are right. *)
Theorem C81_single_partial : forall g linked ts t v ph, NoDup (edge_pairs g) -> phrased g linked (ts ++ [t]) [ph] -> link_of linked t = Some v ->
  phrase_matches g linked (ts ++ [t]) = [ph].
Proof.
  intros g linked ts t v ph ND P L. destruct (C81_matches_partial g linked (ts ++ [t]) [ph] ND P) as [A [B _]].
  destruct (phrase_matches g linked (ts ++ [t])) as [|m [|? ?]]; try discriminate A.
  destruct (B ts t v eq_refl L m (or_introl eq_refl)) as [l E]. destruct l as [|? [|? ?]]; try discriminate E. injection E as ->. reflexivity.
Qed.
Print Assumptions C81_single_partial.

(** Graphs returned by collate satisfy the hypothesis. *)
Theorem C81_graphs : forall cc topo ratio c o g, topo_ok topo -> good_sigla c -> collate cc topo ratio c o = Ok (OGraph g) -> NoDup (edge_pairs g).
Proof.
  intros cc topo ratio c o g TO [ND NE] H. destruct (collate_graph_inv cc topo ratio c o g H) as [r H1].
  destruct (result_spec cc topo ratio TO c o g r ND NE H1) as [ti [st [W0 [W [part RS]]]]].
  apply (gi_edges_nodup _ _ (jo_graph _ _ _ _ _ _ (rs_joined _ _ _ _ _ _ _ _ _ _ _ RS))).
Qed.
Print Assumptions C81_graphs.

(** The graph of "a b c x y"; its vertices are 2 to 6. *)
Definition line_tokens : list token := stamp (lit "A") 0 (map (fun s => word (lit s)) ["a"; "b"; "c"; "x"; "y"]%string).
Definition line_graph : graph := match merge empty_graph (lit "A") line_tokens [] with Ok (g, _) => g | Raise _ => empty_graph end.
(** The witness "x y a b c", linked to the graph word by word: two phrases. *)
Definition moved_tokens : list token := stamp (lit "B") 6 (map (fun s => word (lit s)) ["x"; "y"; "a"; "b"; "c"]%string).
Definition moved_links : list (nat * vid) := [(6, 5); (7, 6); (8, 2); (9, 3); (10, 4)].
Definition phrase_one : list (vid * token) := combine [5; 6] (firstn 2 moved_tokens).
Definition phrase_two : list (vid * token) := combine [2; 3; 4] (skipn 2 moved_tokens).

Lemma line_nodup : NoDup (edge_pairs line_graph).
Proof. vm_compute. repeat constructor; cbn; intuition discriminate. Qed.
Lemma moved_phrased : phrased line_graph moved_links moved_tokens [phrase_one; phrase_two].
Proof.
  destruct (C81_phrases_exist line_graph moved_links moved_tokens line_nodup) as [phs [P U]].
  assert (E : phs = [phrase_one; phrase_two]) by (rewrite (phrased_cut _ _ line_nodup _ _ P); vm_compute; reflexivity). rewrite E in P. exact P.
Qed.
(** Two phrases, and both matches read as the second. *)
Theorem C81_matches_refuted : exists g linked tokens phs, NoDup (edge_pairs g) /\ phrased g linked tokens phs /\ phrase_matches g linked tokens <> phs.
Proof.
  exists line_graph, moved_links, moved_tokens, [phrase_one; phrase_two]. split; [exact line_nodup|]. split; [exact moved_phrased|]. intro F. vm_compute in F. discriminate F.
Qed.
Print Assumptions C81_matches_refuted.
Example C81_example : phrase_matches line_graph moved_links moved_tokens = [phrase_two; phrase_two] /\
  phrase_matches line_graph moved_links (firstn 2 moved_tokens) = [phrase_one].
Proof. split; vm_compute; reflexivity. Qed.

(** ** C82: transpositions *)
Theorem C82_none_partial : forall topo g, @detect_transpositions (list (vid * token)) topo [] g = Ok [].
Proof. reflexivity. Qed.
Print Assumptions C82_none_partial.

(** With any phrase match the detector fails. *)
Theorem C82_transpositions_refuted : forall topo g (phrases : list (list (vid * token))), phrases <> [] ->
  forall l, detect_transpositions topo phrases g <> Ok l.
Proof.
  intros topo g [|p ps] N l H; [contradiction|]. cbn [detect_transpositions] in H. apply bind_ok in H as [rk [_ H]]. discriminate H.
Qed.
Print Assumptions C82_transpositions_refuted.

(** On a graph made by collate without near matching, with TypeError. *)
Theorem C82_type_error : forall cc topo ratio c o g linked tokens t v, topo_ok topo -> good_sigla c -> o_near o = false -> collate cc topo ratio c o = Ok (OGraph g) ->
  In t tokens -> link_of linked t = Some v -> detect_transpositions topo (phrase_matches g linked tokens) g = Raise TypeError.
Proof.
  intros cc topo ratio c o g linked tokens t v TO G N H Ht L. pose proof (C81_graphs cc topo ratio c o g TO G H) as ND.
  destruct (C81_phrases_exist g linked tokens ND) as [phs [P _]]. destruct (C81_matches_partial g linked tokens phs ND P) as [A _].
  assert (NE : phs <> []).
  { intros ->. inversion P as [sk F|]; subst. pose proof (proj1 (Forall_forall _ _) F t Ht) as Q. cbn in Q. rewrite L in Q. discriminate Q. }
  destruct (phrase_matches g linked tokens) as [|m ms]; [destruct phs; [contradiction|discriminate A]|]. cbn [detect_transpositions].
  destruct (collate_graph_inv cc topo ratio c o g H) as [r H1]. destruct G as [G1 G2].
  destruct (result_spec cc topo ratio TO c o g r G1 G2 H1) as [ti [st [W0 [W [part RS]]]]].
  pose proof (jo_graph _ _ _ _ _ _ (rs_joined _ _ _ _ _ _ _ _ _ _ _ RS)) as GI. destruct (rs_near _ _ _ _ _ _ _ _ _ _ _ RS N) as [N0 _].
  assert (NN : without_near g = g) by (destruct g; cbn in N0; subst; reflexivity). rewrite NN in GI.
  destruct (ranking_spec topo g W TO GI) as [rk [mm [l [_ [R1 _]]]]]. rewrite R1. reflexivity.
Qed.
Print Assumptions C82_type_error.
Example C82_example : detect_transpositions kahn (phrase_matches line_graph moved_links moved_tokens) line_graph = Raise TypeError.
Proof. vm_compute. reflexivity. Qed.
