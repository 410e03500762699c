(** The words themselves do not matter, only which of them are equal (C68). *)
From Verif Require Import Py Lib TokenModel SuffixModel IndexModel GraphModel AlignModel TableModel NearModel ExportModel
  CollateModel GraphSpec CollateSpec GraphProof AlignerProof CollateProof IndexProof StageProof WalkStage ResultProof ParamSpec ParamProof RenameProof
  GrowSpec GrowProof Props_grow TopoProof WordSpec WordProof Samples.
From Coq Require Import QArith.
Open Scope list_scope.
Open Scope nat_scope.

(** C68: replace every word of the witnesses by another one, consistently, so that equal words stay equal and different words
    stay different: the tables have the same columns, and every cell holds the tokens at the same places of the witness.
    This holds with and without segmentation, as long as no stage of the collation has two vertices of equal rank with the same reading. *)
Theorem C68_words : forall cc topo ratio c c' o t t', topo_ok topo -> structural topo -> good_sigla c -> same_pattern c c' ->
  o_near o = false -> o_transp o = false -> o_filter o = None ->
  (forall j g, S j < length c -> stage topo None c j = Ok g -> unambiguous g) ->
  collate cc topo ratio c o = Ok (OTable t) -> collate cc topo ratio c' o = Ok (OTable t') -> same_layout t t'.
Proof.
  intros cc topo ratio c c' o t t' TO TS GS SP On Ot Of UN H H'.
  assert (ESG : map w_sigil c' = map w_sigil c).
  { destruct SP as [F _]. clear - F. induction F as [|w w' c c' [E _] F IH]; [reflexivity|]. cbn [map]. congruence. }
  assert (ELN : length c' = length c) by (rewrite <- (map_length w_sigil), ESG; apply map_length).
  assert (GS' : good_sigla c') by (unfold good_sigla; rewrite ESG; exact GS).
  destruct (collate_table_inv _ _ _ _ _ _ H) as [g [r [G1 C1]]]. destruct (collate_table_inv _ _ _ _ _ _ H') as [g' [r' [G2 C2]]].
  rewrite ESG in C2. unfold collate_graph in G1, G2. rewrite On, Ot, Of in *.
  destruct (o_astar o); [discriminate|].
  apply bind_ok in G1 as [[ti g0] [A1 G1]]. apply bind_ok in G1 as [rk [R1 G1]]. cbn [bind] in G1.
  apply bind_ok in G2 as [[ti' g0'] [A2 G2]]. apply bind_ok in G2 as [rk' [R2 G2]]. cbn [bind] in G2.
  apply stage_last in A1. apply stage_last in A2. rewrite ELN in A2.
  assert (GR : grel g0 g0').
  { destruct (length c) as [|n] eqn:Lc; [destruct c; [cbn in A1; discriminate|discriminate]|].
    rewrite stage_more in A1 by (assumption || lia). rewrite stage_more in A2 by (assumption || lia).
    apply (stages_rel topo c c' n g0 g0'); auto; [lia|]. intros j h Lj. apply UN. lia. }
  rewrite (ranking_rel _ _ _ TS GR), R1 in R2. injection R2 as <-.
  destruct (o_segmentation o).
  - apply bind_ok in G1 as [j1 [J1 G1]]. apply bind_ok in G1 as [s1 [T1 G1]]. injection G1 as <- <-.
    apply bind_ok in G2 as [j2 [J2 G2]]. apply bind_ok in G2 as [s2 [T2 G2]]. injection G2 as <- <-.
    pose proof (join_rel cc _ _ GR) as JR. rewrite J1, J2 in JR. cbn in JR.
    rewrite (ranking_rel _ _ _ TS JR), T1 in T2. injection T2 as <-.
    exact (construct_table_rel _ _ _ _ _ _ JR C1 C2).
  - injection G1 as <- <-. injection G2 as <- <-. exact (construct_table_rel _ _ _ _ _ _ GR C1 C2).
Qed.
Print Assumptions C68_words.

(** For two witnesses nothing has to be assumed. *)
Theorem C68_two_witnesses : forall cc topo ratio w1 w2 c' o t t', topo_ok topo -> structural topo -> good_sigla [w1; w2] -> same_pattern [w1; w2] c' ->
  o_near o = false -> o_transp o = false -> o_filter o = None ->
  collate cc topo ratio [w1; w2] o = Ok (OTable t) -> collate cc topo ratio c' o = Ok (OTable t') -> same_layout t t'.
Proof.
  intros cc topo ratio w1 w2 c' o t t' TO TS GS SP On Ot Of H H'.
  apply (C68_words cc topo ratio [w1; w2] c' o t t' TO TS GS SP On Ot Of); auto.
  intros j g Lj Sj. cbn in Lj. assert (j = 0) by lia. subst j. apply (first_stage_unambiguous topo None [w1; w2] g TO GS Sj).
Qed.
Print Assumptions C68_two_witnesses.

(** A check for concrete collations. *)
Definition pattern_check (c c' : collation) : bool :=
  forallb (fun x => forallb (fun y => Bool.eqb (str_eqb (t0_str (snd x)) (t0_str (snd y))) (str_eqb (t0_str (fst x)) (t0_str (fst y)))) (counterparts c c'))
    (counterparts c c').
Lemma pattern_checked : forall c c', pattern_check c c' = true ->
  Forall2 (fun w w' => w_sigil w' = w_sigil w /\ length (w_toks w') = length (w_toks w)) c c' -> same_pattern c c'.
Proof.
  intros c c' H F. split; [assumption|]. intros a a' b b' Ha Hb. unfold pattern_check in H. rewrite forallb_forall in H.
  specialize (H _ Ha). rewrite forallb_forall in H. specialize (H _ Hb). cbn [fst snd] in H. apply Bool.eqb_prop in H.
  split; intros E.
  - apply str_eqb_ok. rewrite <- H. apply str_eqb_ok. assumption.
  - apply str_eqb_ok. rewrite H. apply str_eqb_ok. assumption.
Qed.

(** The hypothesis on the stages is needed.  Here the word z is replaced by the word a, which occurs nowhere else; only the
    alphabetical order of the words changes.  The last token of D was on one vertex with a token of A; now it is on one
    vertex with a token of B instead. *)
Definition undecided_a : collation :=
  [words "A" ["s"; "t"; "u"; "a"; "a"]; words "B" ["a"; "p"; "q"; "r"; "v"];
   words "C" ["k"; "l"; "m"; "n"; "a"; "p"; "q"; "r"; "v"]; words "D" ["g"; "h"; "i"; "a"; "a"]].
Theorem C68_ambiguous_refuted : exists c c' g g', good_sigla c /\ same_pattern c c' /\
  collate ascii_cc kahn sample_ratio c (plain_options "graph") = Ok (OGraph g) /\
  collate ascii_cc kahn sample_ratio c' (plain_options "graph") = Ok (OGraph g') /\
  exists sg p sg' p' sg'' p'',
    on_one_vertex g sg p sg' p' = true /\ on_one_vertex g' sg p sg' p' = false /\
    on_one_vertex g sg p sg'' p'' = false /\ on_one_vertex g' sg p sg'' p'' = true.
Proof.
  exists undecided, undecided_a.
  destruct (collate ascii_cc kahn sample_ratio undecided (plain_options "graph")) as [x|] eqn:E; [|exfalso; vm_compute in E; discriminate].
  destruct (collate ascii_cc kahn sample_ratio undecided_a (plain_options "graph")) as [y|] eqn:E'; [|exfalso; vm_compute in E'; discriminate].
  vm_compute in E. injection E as <-. vm_compute in E'. injection E' as <-.
  eexists. eexists. split; [split; [repeat constructor; cbn; intuition discriminate|cbn; intuition discriminate]|].
  split; [apply pattern_checked; [vm_compute; reflexivity|repeat constructor]|].
  split; [reflexivity|]. split; [reflexivity|].
  exists (lit "D"), 26, (lit "A"), 4, (lit "B"), 6. vm_compute. auto.
Qed.
Print Assumptions C68_ambiguous_refuted.

(** Other words, in another alphabetical order, with the same pattern: x a b a y against a b z. *)
Definition pat1 : collation := [words "A" ["x"; "a"; "b"; "a"; "y"]; words "B" ["a"; "b"; "z"]].
Definition pat2 : collation := [words "A" ["k"; "w"; "v"; "w"; "d"]; words "B" ["w"; "v"; "c"]].
Example C68_example : exists t t', good_sigla pat1 /\ same_pattern pat1 pat2 /\
  collate ascii_cc kahn sample_ratio pat1 (plain_options "table") = Ok (OTable t) /\
  collate ascii_cc kahn sample_ratio pat2 (plain_options "table") = Ok (OTable t') /\ same_layout t t' /\
  table_of (Ok (OTable t)) <> table_of (Ok (OTable t')) /\ length (t_columns t) = 5.
Proof.
  destruct (collate ascii_cc kahn sample_ratio pat1 (plain_options "table")) as [x|] eqn:E; [|exfalso; vm_compute in E; discriminate].
  destruct (collate ascii_cc kahn sample_ratio pat2 (plain_options "table")) as [y|] eqn:E'; [|exfalso; vm_compute in E'; discriminate].
  assert (exists t, x = OTable t) as [t ->] by (vm_compute in E; injection E as <-; eauto).
  assert (exists t, y = OTable t) as [t' ->] by (vm_compute in E'; injection E' as <-; eauto).
  assert (GS : good_sigla pat1) by (split; [repeat constructor; cbn; intuition discriminate|cbn; intuition discriminate]).
  assert (SP : same_pattern pat1 pat2) by (apply pattern_checked; [vm_compute; reflexivity|repeat constructor]).
  exists t, t'. split; [assumption|]. split; [assumption|]. split; [reflexivity|]. split; [reflexivity|]. split.
  - exact (C68_two_witnesses ascii_cc kahn sample_ratio _ _ _ (plain_options "table") t t' kahn_topo_ok kahn_structural GS SP eq_refl eq_refl eq_refl E E').
  - vm_compute in E, E'. injection E as <-. injection E' as <-. split; [vm_compute; discriminate|reflexivity].
Qed.
