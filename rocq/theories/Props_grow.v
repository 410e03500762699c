(** Further witnesses only add to the variant graph (C64). *)
From Verif Require Import Py Lib TokenModel SuffixModel IndexModel GraphModel AlignModel TableModel NearModel ExportModel
  CollateModel GraphSpec CollateSpec GraphProof AlignerProof CollateProof IndexProof StageProof WalkSpec WalkProof WalkAlign WalkStage ResultProof IdentProof Props_collate GrowSpec GrowProof TopoProof Samples.
From Coq Require Import QArith.
Open Scope list_scope.
Open Scope nat_scope.

Lemma stage_more : forall topo filt c k, good_sigla c -> length c <= S k -> stage topo filt c (S k) = stage topo filt c k.
Proof.
  intros topo filt c k [ND _] L. unfold stage. destruct (prepare c) as [ti|e] eqn:P; [|reflexivity]. cbn [bind].
  destruct (ti_wits ti) as [|w ws] eqn:Ew; [reflexivity|].
  assert (Lw : length ws <= k).
  { enough (length (ti_wits ti) = length c) by (rewrite Ew in *; cbn in *; lia).
    rewrite (ix_wits c ti (prepare_index_ok c ti ND P)). apply stamped_length. }
  rewrite !firstn_all2 by lia. reflexivity.
Qed.

Lemma stage_some : forall topo filt c k g, stage topo filt c k = Ok g -> c <> [].
Proof. intros topo filt c k g H ->. discriminate. Qed.

Lemma stage_below : forall topo filt c d k g, stage topo filt c (k + d) = Ok g -> exists g', stage topo filt c k = Ok g'.
Proof.
  induction d as [|d IH]; intros k g H; [rewrite Nat.add_0_r in H; eauto|]. rewrite Nat.add_succ_r in H.
  destruct (stage_pred _ _ _ _ _ H) as [g1 H1]. eauto.
Qed.

(** C64: the graph built from the first witnesses does not depend on the witnesses that come later. *)
Theorem C64_stage_only_earlier : forall topo c m1 m2 k g1 g2, topo_ok topo -> good_sigla (c ++ m1) -> good_sigla (c ++ m2) -> k < length c ->
  stage topo None (c ++ m1) k = Ok g1 -> stage topo None (c ++ m2) k = Ok g2 ->
  (forall j g, j < k -> stage topo None (c ++ m1) j = Ok g -> unambiguous g) -> g1 = g2.
Proof. exact stages_same. Qed.
Print Assumptions C64_stage_only_earlier.

(** While a collation runs, the graph only grows, whatever filter is given. *)
Theorem C64_grows : forall topo filt c k d g g', topo_ok topo -> good_sigla c -> k + d < length c ->
  stage topo filt c k = Ok g -> stage topo filt c (k + d) = Ok g' -> grown (map w_sigil (firstn (S k) c)) g g'.
Proof. exact stages_grown. Qed.
Print Assumptions C64_grows.

(** The graph of a collation is contained in the graph of the collation with more witnesses. *)
Theorem C64_further_witnesses : forall cc topo ratio c more o g g', topo_ok topo -> good_sigla (c ++ more) ->
  o_near o = false -> o_segmentation o = false -> o_transp o = false -> o_filter o = None ->
  collate cc topo ratio c o = Ok (OGraph g) -> collate cc topo ratio (c ++ more) o = Ok (OGraph g') ->
  (forall j gj, S j < length c -> stage topo None c j = Ok gj -> unambiguous gj) ->
  grown (map w_sigil c) g g'.
Proof.
  intros cc topo ratio c more o g g' TO GS On Os Ot Of H H' U.
  assert (GC : good_sigla c).
  { destruct GS as [A B]. rewrite map_app in A, B. split; [apply NoDup_app_iff in A; apply A|].
    intro I. apply B. apply in_or_app. left. assumption. }
  pose proof (C06_stages_reach_result cc topo ratio c o g On Os Ot H) as S1.
  pose proof (C06_stages_reach_result cc topo ratio (c ++ more) o g' On Os Ot H') as S2. rewrite Of in S1, S2.
  pose proof (stage_some _ _ _ _ _ S1) as NE. destruct (length c) as [|n] eqn:Lc; [destruct c; [congruence|discriminate]|].
  rewrite stage_more in S1 by (assumption || lia).
  rewrite app_length, Lc in S2. cbn [Nat.add] in S2. rewrite stage_more in S2 by (assumption || (rewrite app_length; lia)).
  destruct (stage_below _ _ _ _ _ _ S2) as [g1 S3].
  assert (g = g1).
  { apply (stages_same topo c [] more n g g1 TO); rewrite ?app_nil_r; try assumption; [lia|].
    intros j gj Hj. rewrite ?app_nil_r. apply U. lia. }
  subst g1.
  replace (map w_sigil c) with (map w_sigil (firstn (S n) (c ++ more)))
    by (f_equal; rewrite firstn_app, Lc, Nat.sub_diag, firstn_O, app_nil_r; apply firstn_all2; lia).
  apply (stages_grown topo None (c ++ more) n (length more) g g' TO GS); try assumption. rewrite app_length. lia.
Qed.
Print Assumptions C64_further_witnesses.

(** The graph of one witness is unambiguous, hence the alignment of the first two witnesses is kept
    in every larger collation. *)
Lemma first_stage_unambiguous : forall topo filt c g, topo_ok topo -> good_sigla c -> stage topo filt c 0 = Ok g -> unambiguous g.
Proof.
  intros topo filt c g TO GS H. destruct (stage_state topo filt c 0 g TO GS H) as [ti [st [W [P [IX [TX [NW [Eg [AI _]]]]]]]]].
  assert (LW : exists wp, W = [wp]).
  { pose proof (al_paths _ _ _ _ _ AI) as F. destruct (ti_wits ti) as [|iw r]; cbn [firstn] in F; inversion F; subst; [congruence|].
    inversion H4; subst. eauto. }
  destruct LW as [wp ->].
  pose proof (al_graph _ _ _ _ _ AI) as GI. rewrite Eg in GI.
  assert (SP : single_path g (map fst (snd wp))).
  { apply (paths_single g _ _ GI NW). intros x [<-|[]]. reflexivity. }
  intros rk v v' vx vx' LG D1 D2 E _.
  set (L := v_start :: map fst (snd wp) ++ [v_end]) in *.
  assert (I : forall u ux, dget Nat.eqb u (g_verts g) = Some ux -> In u L).
  { intros u ux D. apply SP. apply in_map_iff. exists (u, ux). split; [reflexivity|]. apply (dget_In _ nat_eqb_ok _ _ _ D). }
  destruct (In_nth_error _ _ (I _ _ D1)) as [i Q1]. destruct (In_nth_error _ _ (I _ _ D2)) as [j Q2].
  pose proof (single_rank g _ rk SP LG i v Q1) as R1. pose proof (single_rank g _ rk SP LG j v' Q2) as R2.
  assert (i = j) by congruence. subst j. unfold L in *. congruence.
Qed.

Theorem C64_first_two : forall cc topo ratio w1 w2 more o g g', topo_ok topo -> good_sigla (w1 :: w2 :: more) ->
  o_near o = false -> o_segmentation o = false -> o_transp o = false -> o_filter o = None ->
  collate cc topo ratio [w1; w2] o = Ok (OGraph g) -> collate cc topo ratio (w1 :: w2 :: more) o = Ok (OGraph g') ->
  grown [w_sigil w1; w_sigil w2] g g'.
Proof.
  intros cc topo ratio w1 w2 more o g g' TO GS On Os Ot Of H H'.
  apply (C64_further_witnesses cc topo ratio [w1; w2] more o g g' TO GS On Os Ot Of H H').
  intros j gj Hj Sj. cbn in Hj. assert (j = 0) by lia. subst j.
  apply (first_stage_unambiguous topo None [w1; w2] gj TO); [|assumption].
  destruct GS as [A B]. cbn in *. split; [|cbn; intuition].
  repeat constructor; cbn; inversion A; subst; cbn in *; intuition.
Qed.
Print Assumptions C64_first_two.

(** Two tokens of the first witnesses stand on one vertex after more witnesses were added exactly if they did before. *)
Lemma grown_aligned : forall sgs g g' sg t sg' t', grown sgs g g' -> In sg sgs -> In sg' sgs ->
  (aligned_in g' sg t sg' t' <-> aligned_in g sg t sg' t').
Proof.
  intros sgs g g' sg t sg' t' G Hs Hs'. split.
  - intros [v [vx [ts [ts' [D [T [I [T' I']]]]]]]].
    destruct (in_dec Nat.eq_dec v (vertices g)) as [Hv|Hv].
    + destruct (dget_Some_key _ nat_eqb_ok _ _ Hv) as [x Dx].
      destruct (gr_vertex _ _ _ G v x Dx) as [vx' [D' [_ K]]]. assert (vx' = vx) by congruence. subst vx'.
      exists v, x, ts, ts'. rewrite (K sg Hs) in T. rewrite (K sg' Hs') in T'. auto.
    + rewrite (gr_new _ _ _ G v vx D Hv sg Hs) in T. discriminate.
  - intros [v [vx [ts [ts' [D [T [I [T' I']]]]]]]].
    destruct (gr_vertex _ _ _ G v vx D) as [vx' [D' [_ K]]]. exists v, vx', ts, ts'.
    rewrite (K sg Hs), (K sg' Hs'). auto.
Qed.

Theorem C64_alignment_kept : forall cc topo ratio c more o g g', topo_ok topo -> good_sigla (c ++ more) ->
  o_near o = false -> o_segmentation o = false -> o_transp o = false -> o_filter o = None ->
  collate cc topo ratio c o = Ok (OGraph g) -> collate cc topo ratio (c ++ more) o = Ok (OGraph g') ->
  (forall j gj, S j < length c -> stage topo None c j = Ok gj -> unambiguous gj) ->
  forall w w' t t', In w c -> In w' c ->
    (aligned_in g' (w_sigil w) t (w_sigil w') t' <-> aligned_in g (w_sigil w) t (w_sigil w') t').
Proof.
  intros cc topo ratio c more o g g' TO GS On Os Ot Of H H' U w w' t t' Hw Hw'.
  apply (grown_aligned (map w_sigil c)); [|apply in_map; assumption..].
  apply (C64_further_witnesses cc topo ratio c more o g g'); assumption.
Qed.
Print Assumptions C64_alignment_kept.

(** The hypothesis on the stages is needed: a further witness can change the alignment of the earlier ones.
    The second z of D is on one vertex with a z of A, unless there is a fifth witness; then it is on one vertex
    with the z of B. *)
Definition undecided : collation :=
  [words "A" ["s"; "t"; "u"; "z"; "z"]; words "B" ["z"; "p"; "q"; "r"; "v"];
   words "C" ["k"; "l"; "m"; "n"; "z"; "p"; "q"; "r"; "v"]; words "D" ["g"; "h"; "i"; "z"; "z"]].

(** Do the tokens at the positions [p] of [sg] and [p'] of [sg'] (in the array of all tokens) share a vertex? *)
Definition on_one_vertex (g : graph) (sg : str) (p : nat) (sg' : str) (p' : nat) : bool :=
  existsb (fun x => match dget str_eqb sg (v_tokens (snd x)), dget str_eqb sg' (v_tokens (snd x)) with
                    | Some ts, Some ts' => existsb (fun t => tk_pos t =? p) ts && existsb (fun t => tk_pos t =? p') ts'
                    | _, _ => false
                    end) (g_verts g).

Theorem C64_ambiguous_refuted : exists c w g g', good_sigla (c ++ [w]) /\
  collate ascii_cc kahn sample_ratio c (plain_options "graph") = Ok (OGraph g) /\
  collate ascii_cc kahn sample_ratio (c ++ [w]) (plain_options "graph") = Ok (OGraph g') /\
  exists sg p sg' p' sg'' p'', 
    on_one_vertex g sg p sg' p' = true /\ on_one_vertex g' sg p sg' p' = false /\
    on_one_vertex g sg p sg'' p'' = false /\ on_one_vertex g' sg p sg'' p'' = true.
Proof.
  exists undecided, (words "E" ["~"]).
  destruct (collate ascii_cc kahn sample_ratio undecided (plain_options "graph")) as [x|] eqn:E; [|exfalso; vm_compute in E; discriminate].
  destruct (collate ascii_cc kahn sample_ratio (undecided ++ [words "E" ["~"]]) (plain_options "graph")) as [y|] eqn:E'; [|exfalso; vm_compute in E'; discriminate].
  vm_compute in E. injection E as <-. vm_compute in E'. injection E' as <-.
  eexists. eexists. split; [split; [repeat constructor; cbn; intuition discriminate|cbn; intuition discriminate]|].
  split; [reflexivity|]. split; [reflexivity|].
  exists (lit "D"), 26, (lit "A"), 4, (lit "B"), 6. vm_compute. auto.
Qed.
Print Assumptions C64_ambiguous_refuted.

(** Only tokens on one vertex stay together: readings that merely share a column can be separated. *)
Theorem C64_columns_refuted : exists c w t t', good_sigla (c ++ [w]) /\
  collate ascii_cc kahn sample_ratio c (plain_options "table") = Ok (OTable t) /\
  collate ascii_cc kahn sample_ratio (c ++ [w]) (plain_options "table") = Ok (OTable t') /\
  same_column t (lit "A") (lit "b") (lit "B") (lit "c") /\ ~ same_column t' (lit "A") (lit "b") (lit "B") (lit "c").
Proof.
  exists [words "A" ["a"; "b"]; words "B" ["a"; "c"]], (words "C" ["a"; "q"; "b"]).
  match goal with |- context [collate ascii_cc kahn sample_ratio ?c _] => destruct (collate ascii_cc kahn sample_ratio c (plain_options "table")) as [x|] eqn:E; [|exfalso; vm_compute in E; discriminate] end.
  vm_compute in E. injection E as <-.
  match goal with |- context [collate ascii_cc kahn sample_ratio ?c _] => destruct (collate ascii_cc kahn sample_ratio c (plain_options "table")) as [x|] eqn:E; [|exfalso; vm_compute in E; discriminate] end.
  vm_compute in E. injection E as <-.
  eexists. eexists. split; [split; [repeat constructor; cbn; intuition discriminate|cbn; intuition discriminate]|].
  split; [reflexivity|]. split; [reflexivity|]. split.
  - unfold same_column. cbn [t_columns]. eexists. eexists. eexists. eexists. eexists.
    split; [right; left; reflexivity|]. split; [vm_compute; reflexivity|]. split; [left; reflexivity|]. split; [reflexivity|].
    split; [vm_compute; reflexivity|]. split; [left; reflexivity|]. reflexivity.
  - intros [col [ts [ts' [k [k' [I [A [A1 [A2 [B [B1 B2]]]]]]]]]]]. cbn [t_columns] in I.
    destruct I as [<-|[<-|[<-|[]]]]; vm_compute in A, B; try discriminate.
    injection A as <-. destruct A1 as [<-|[]]. vm_compute in A2. discriminate.
Qed.
Print Assumptions C64_columns_refuted.

(** The stages of this collation are unambiguous, and the third witness really changes the graph. *)
Example C64_example : exists g g',
  collate ascii_cc kahn sample_ratio (firstn 2 three_witnesses) (plain_options "graph") = Ok (OGraph g) /\
  collate ascii_cc kahn sample_ratio three_witnesses (plain_options "graph") = Ok (OGraph g') /\
  grown [lit "A"; lit "B"] g g' /\ length (g_verts g) < length (g_verts g') /\ on_one_vertex g' (lit "A") 2 (lit "B") 7 = true.
Proof.
  destruct (collate ascii_cc kahn sample_ratio (firstn 2 three_witnesses) (plain_options "graph")) as [x|] eqn:E; [|exfalso; vm_compute in E; discriminate].
  destruct (collate ascii_cc kahn sample_ratio three_witnesses (plain_options "graph")) as [y|] eqn:E'; [|exfalso; vm_compute in E'; discriminate].
  assert (exists g, x = OGraph g) as [g ->] by (vm_compute in E; injection E as <-; eauto).
  assert (exists g, y = OGraph g) as [g' ->] by (vm_compute in E'; injection E' as <-; eauto).
  exists g, g'. split; [reflexivity|]. split; [reflexivity|]. split.
  - assert (G : good_sigla three_witnesses) by (split; [repeat constructor; cbn; intuition discriminate|cbn; intuition discriminate]).
    exact (C64_first_two ascii_cc kahn sample_ratio _ _ _ (plain_options "graph") g g' kahn_topo_ok G eq_refl eq_refl eq_refl eq_refl E E').
  - vm_compute in E, E'. injection E as <-. injection E' as <-. split; [cbn; lia|vm_compute; reflexivity].
Qed.
