(** A further witness that has nothing in common with the others (C90). *)
From Verif Require Import Py Lib TokenModel SuffixModel IndexModel GraphModel AlignModel TableModel NearModel ExportModel
  CollateModel GraphSpec CollateSpec TableSpec GraphProof MergeProof AlignerProof RankProof TableProof CollateProof IndexProof StageProof
  ResultProof FactsProof IdentProof NearProof ReadProof CommonProof PairProof ExportProof SegProof OutputProof GrowSpec GrowProof Props_collate Props_grow ReadSpec Props_read
  TopoProof Samples SizeSpec SizeProof Props_size ShapeProof StrangerProof.
From Coq Require Import QArith.
Open Scope list_scope.
Open Scope nat_scope.

(** The row with empty cells up to the width [n]. *)
Definition widened (n : nat) (r : row) : row :=
  {| r_header := r_header r; r_cells := r_cells r ++ repeat None (n - length (r_cells r)) |}.

Lemma paths_same : forall (W1 W : list wpath) q, NoDup (map fst (W1 ++ [q])) -> map fst W1 = map fst W -> (forall p, In p W -> In p (W1 ++ [q])) -> W1 = W.
Proof.
  intros W1 W q ND EQ IN. assert (G : forall U V, map fst U = map fst V -> (forall p, In p U -> In p (W1 ++ [q])) -> (forall p, In p V -> In p (W1 ++ [q])) -> U = V).
  { induction U as [|u U IH]; intros [|v V] E I1 I2; try discriminate E; [reflexivity|]. cbn [map] in E. injection E as E1 E2. f_equal.
    - pose proof (I1 u (or_introl eq_refl)) as A. pose proof (I2 v (or_introl eq_refl)) as B. clear - ND E1 A B. induction (W1 ++ [q]) as [|x X IH]; [destruct A|].
      cbn [map] in ND. inversion ND as [|? ? N1 N2]; subst. destruct A as [->|A], B as [->|B]; [reflexivity| | |apply IH; assumption].
      + exfalso. apply N1. rewrite E1. apply in_map. assumption.
      + exfalso. apply N1. rewrite <- E1. apply in_map. assumption.
    - apply IH; [assumption|intros; apply I1; right; assumption|intros; apply I2; right; assumption]. }
  apply G; [assumption|intros p H; apply in_or_app; left; assumption|assumption].
Qed.

(** ** C90: a further witness with no word in common with the others stands beside them from
    the left, and the rows of the others stay as they were, but for empty cells at the end.
    As in C64 this holds where the graphs on the way are unambiguous. *)
Theorem C90_stranger : forall cc topo ratio c w o t t', topo_ok topo -> good_sigla (c ++ [w]) ->
  o_near o = false -> o_segmentation o = false -> o_transp o = false -> o_filter o = None ->
  collate cc topo ratio c o = Ok (OTable t) -> collate cc topo ratio (c ++ [w]) o = Ok (OTable t') ->
  (forall j gj, S j < length c -> stage topo None c j = Ok gj -> unambiguous gj) ->
  (forall w0 t0 t1, In w0 c -> In t0 (w_toks w0) -> In t1 (w_toks w) -> t0_str t0 <> t0_str t1) ->
  length (t_columns t') = Nat.max (length (t_columns t)) (length (w_toks w)) /\
  exists ts, Forall2 (came_from (w_sigil w)) (w_toks w) ts /\
    t_rows t' = map (widened (length (t_columns t'))) (t_rows t) ++
                [widened (length (t_columns t')) {| r_header := w_sigil w; r_cells := map (fun k => Some [k]) ts |}].
Proof.
  intros cc topo ratio c w o t t' TO GS On Os Ot Of H H' U NC.
  assert (GC : good_sigla c).
  { destruct GS as [A B]. rewrite map_app in A, B. split; [apply NoDup_app_iff in A; apply A|]. intro I. apply B. apply in_or_app. left. assumption. }
  destruct (table_parts cc topo ratio TO c o t GC On H) as [g [W [rk [m [l [G1 [GI [NW [CA [RO [-> [_ [ONE _]]]]]]]]]]]]].
  destruct (table_parts cc topo ratio TO (c ++ [w]) o t' GS On H') as [g' [W' [rk' [m' [l' [G1' [GI' [NW' [CA' [RO' [-> [SAME [ONE' _]]]]]]]]]]]]]. specialize (ONE' Os).
  assert (GR : grown (map w_sigil c) g g').
  { apply (C64_further_witnesses cc topo ratio c [w] (set_output o (lit "graph")) g g' TO GS); try assumption;
      [apply graph_output with (r := ranking_for rk m l)|apply graph_output with (r := ranking_for rk' m' l')]; assumption. }
  pose proof CA' as CA2. apply Forall2_app_inv_l in CA2 as [W1 [Wq [F1 [F2 EW]]]]. inversion F2 as [|? q ? ? Cq F3]; subst. inversion F3; subst.
  assert (KEEP : forall p, In p W -> In p (W1 ++ [q])).
  { intros p Hp. destruct (Forall2_In_r _ _ _ _ CA Hp) as [w0 [Hw0 [E0 _]]].
    apply (path_kept g g' W (W1 ++ [q]) (map w_sigil c) GI GI' GR rk' m' l' RO' p Hp); [rewrite E0; apply in_map; assumption|].
    rewrite map_app. apply in_or_app. left. rewrite <- (ShapeProof.carries_sigla c W1 F1), E0. apply in_map. assumption. }
  assert (W1 = W).
  { apply (paths_same W1 W q (gi_sigla _ _ GI')); [|exact KEEP]. rewrite <- (ShapeProof.carries_sigla c W1 F1). apply (ShapeProof.carries_sigla c W CA). }
  subst W1.
  assert (ONLY : forall p, In p (W ++ [q]) -> In p W \/ p = q) by (intros p Hp; apply in_app_or in Hp as [Hp|[Hp|[]]]; auto).
  assert (Hq : In q (W ++ [q])) by (apply in_or_app; right; left; reflexivity).
  assert (APART : forall p v, In p W -> In v (map fst (snd p)) -> ~ In v (map fst (snd q))).
  { intros p v Hp Vp Vq. apply in_map_iff in Vp as [[v1 ts] [E1 Vp]]. apply in_map_iff in Vq as [[v2 ts'] [E2 Vq]]. cbn [fst] in E1, E2. subst v1 v2.
    pose proof (SAME p q v ts ts' (KEEP p Hp) Hq Vp Vq) as ES. destruct (gi_on _ _ GI p v ts Hp Vp) as [_ N1].
    destruct ts as [|a ts]; [congruence|]. destruct ts' as [|a' ts']; [discriminate ES|]. cbn [map] in ES. injection ES as ES _.
    destruct (Forall2_In_r _ _ _ _ CA Hp) as [w0 [Hw [A1 A2]]]. destruct Cq as [B1 B2].
    assert (I1 : In a (flat_map snd (snd p))) by (apply in_flat_map; exists (v, a :: ts); split; [assumption|left; reflexivity]).
    assert (I2 : In a' (flat_map snd (snd q))) by (apply in_flat_map; exists (v, a' :: ts'); split; [assumption|left; reflexivity]).
    destruct (Forall2_In_r _ _ _ _ A2 I1) as [t0 [H0 [C1 _]]]. destruct (Forall2_In_r _ _ _ _ B2 I2) as [t0' [H0' [C2 _]]].
    apply (NC w0 t0 t0' Hw H0 H0'). congruence. }
  assert (Lq : length (w_toks w) = length (snd q)).
  { destruct Cq as [_ F]. rewrite (Forall2_len _ _ _ F). assert (Q : forall v ts, In (v, ts) (snd q) -> exists k, ts = [k]) by (intros; eapply ONE'; eassumption).
    clear - Q. induction (snd q) as [|[v ts] r IH]; [reflexivity|]. cbn [flat_map length]. rewrite app_length, IH by (intros; eapply Q; right; eassumption).
    destruct (Q v ts (or_introl eq_refl)) as [k ->]. reflexivity. }
  pose proof (rank_end_max g W rk m l GI RO NW) as EM. pose proof (rank_end_max g' (W ++ [q]) rk' m' l' GI' RO' NW') as EM'.
  pose proof (stranger_end g W rk m l g' (W ++ [q]) rk' m' l' q GI RO NW GI' RO' NW' KEEP ONLY Hq APART) as SE.
  rewrite (table_width g W rk m l GI RO NW), (table_width g' (W ++ [q]) rk' m' l' GI' RO' NW'). split; [lia|].
  exists (flat_map snd (snd q)). split; [apply Cq|].
  etransitivity; [exact (rows_paths (c ++ [w]) (W ++ [q]) rk' m' l' CA')|]. rewrite (rows_paths c W rk m l CA), map_app, map_map. f_equal.
  - apply map_ext_in. intros p Hp. unfold widened. cbn [construct_row r_header].
    rewrite (row_cells g W rk m l GI RO NW _ p Hp). rewrite map_length, seq_length. 
    pose proof (row_cells g' (W ++ [q]) rk' m' l' GI' RO' NW' (map w_sigil (c ++ [w])) p (KEEP p Hp)) as RC.
    rewrite (stranger_old_cells g W rk m l g' (W ++ [q]) rk' m' l' q GI RO NW GI' RO' NW' KEEP ONLY Hq APART p Hp) in RC.
    assert (2 <= m). { pose proof (rank_le_end g W rk m l GI RO NW v_start (start_In _ _ GI)) as Q. specialize (Q ltac:(discriminate)). lia. }
    replace (m' - 2 - (m - 2)) with (m' - m) by lia. rewrite <- RC. reflexivity.
  - cbn [map]. f_equal. unfold widened. cbn [r_header r_cells].
    pose proof (row_cells g' (W ++ [q]) rk' m' l' GI' RO' NW' (map w_sigil (c ++ [w])) q Hq) as RC.
    rewrite (stranger_new_cells g W rk m l g' (W ++ [q]) rk' m' l' q GI RO NW GI' RO' NW' KEEP ONLY Hq APART) in RC.
    assert (EF : map (fun s : vid * list token => Some (snd s)) (snd q) = map (fun k => Some [k]) (flat_map snd (snd q)) /\ length (flat_map snd (snd q)) = length (snd q)).
    { assert (Q : forall v ts, In (v, ts) (snd q) -> exists k, ts = [k]) by (intros; eapply ONE'; eassumption). clear - Q.
      induction (snd q) as [|[v ts] r IH]; [split; reflexivity|]. cbn [flat_map map snd]. destruct (Q v ts (or_introl eq_refl)) as [k ->]. cbn [app map length].
      destruct IH as [I1 I2]; [intros; eapply Q; right; eassumption|]. rewrite I1, I2. split; reflexivity. }
    destruct EF as [EF1 EF2]. rewrite EF1 in RC. rewrite map_length, EF2, <- (proj1 Cq). unfold construct_row at 1. f_equal. exact RC.
Qed.
Print Assumptions C90_stranger.

(** For one or two witnesses before it there is no condition. *)
Theorem C90_first_two : forall cc topo ratio c w o t t', topo_ok topo -> good_sigla (c ++ [w]) -> length c <= 2 ->
  o_near o = false -> o_segmentation o = false -> o_transp o = false -> o_filter o = None ->
  collate cc topo ratio c o = Ok (OTable t) -> collate cc topo ratio (c ++ [w]) o = Ok (OTable t') ->
  (forall w0 t0 t1, In w0 c -> In t0 (w_toks w0) -> In t1 (w_toks w) -> t0_str t0 <> t0_str t1) ->
  length (t_columns t') = Nat.max (length (t_columns t)) (length (w_toks w)) /\
  exists ts, Forall2 (came_from (w_sigil w)) (w_toks w) ts /\
    t_rows t' = map (widened (length (t_columns t'))) (t_rows t) ++
                [widened (length (t_columns t')) {| r_header := w_sigil w; r_cells := map (fun k => Some [k]) ts |}].
Proof.
  intros cc topo ratio c w o t t' TO GS L On Os Ot Of H H' NC. apply (C90_stranger cc topo ratio c w o t t' TO GS On Os Ot Of H H'); [|exact NC].
  intros j gj Hj Sj. assert (j = 0) by lia. subst j. apply (first_stage_unambiguous topo None c gj TO); [|assumption].
  destruct GS as [A B]. rewrite map_app in A, B. split; [apply NoDup_app_iff in A; apply A|]. intro I. apply B. apply in_or_app. left. assumption.
Qed.
Print Assumptions C90_first_two.

(** Two vertices of one rank with the word z: with or without the stranger the last z of D is
    aligned with that of A or with that of B, and the last witness then shifts them apart. *)
Definition undecided_longer : collation := undecided ++ [words "F" ["s"; "t"; "u"; "1"; "2"; "z"; "z"]].

Theorem C90_ambiguous_refuted : exists c w t t', good_sigla (c ++ [w]) /\
  collate ascii_cc kahn sample_ratio c (plain_options "table") = Ok (OTable t) /\
  collate ascii_cc kahn sample_ratio (c ++ [w]) (plain_options "table") = Ok (OTable t') /\
  (forall w0 t0 t1, In w0 c -> In t0 (w_toks w0) -> In t1 (w_toks w) -> t0_str t0 <> t0_str t1) /\
  Nat.max (length (t_columns t)) (length (w_toks w)) < length (t_columns t').
Proof.
  exists undecided_longer, (words "E" ["~"]).
  destruct (collate ascii_cc kahn sample_ratio undecided_longer (plain_options "table")) as [x|] eqn:E; [|exfalso; vm_compute in E; discriminate E].
  destruct (collate ascii_cc kahn sample_ratio (undecided_longer ++ [words "E" ["~"]]) (plain_options "table")) as [y|] eqn:E'; [|exfalso; vm_compute in E'; discriminate E'].
  vm_compute in E. injection E as <-. vm_compute in E'. injection E' as <-.
  eexists. eexists. split; [split; [repeat constructor; cbn; intuition discriminate|cbn; intuition discriminate]|].
  split; [reflexivity|]. split; [reflexivity|]. split; [|vm_compute; lia].
  intros w0 t0 t1 H0 H1 H2. destruct H2 as [<-|[]]. cbn in H0. intro Q.
  repeat (destruct H0 as [<-|H0]; [cbn in H1; repeat (destruct H1 as [<-|H1]; [discriminate Q|]); destruct H1|]). destruct H0.
Qed.
Print Assumptions C90_ambiguous_refuted.

(** The theorem at work: the stranger is longer than the others. *)
Definition two_known : collation := [words "A" ["a"; "x"; "b"]; words "B" ["a"; "b"]].
Definition the_stranger : witness := words "C" ["1"; "2"; "3"; "4"].

Example C90_example : exists t t', good_sigla (two_known ++ [the_stranger]) /\
  collate ascii_cc kahn sample_ratio two_known (plain_options "table") = Ok (OTable t) /\
  collate ascii_cc kahn sample_ratio (two_known ++ [the_stranger]) (plain_options "table") = Ok (OTable t') /\
  (forall w0 t0 t1, In w0 two_known -> In t0 (w_toks w0) -> In t1 (w_toks the_stranger) -> t0_str t0 <> t0_str t1) /\
  length (t_columns t) = 3 /\ length (t_columns t') = 4.
Proof.
  destruct (collate ascii_cc kahn sample_ratio two_known (plain_options "table")) as [x|] eqn:E; [|exfalso; vm_compute in E; discriminate E].
  destruct (collate ascii_cc kahn sample_ratio (two_known ++ [the_stranger]) (plain_options "table")) as [y|] eqn:E'; [|exfalso; vm_compute in E'; discriminate E'].
  vm_compute in E. injection E as <-. vm_compute in E'. injection E' as <-.
  eexists. eexists. split; [split; [repeat constructor; cbn; intuition discriminate|cbn; intuition discriminate]|].
  split; [reflexivity|]. split; [reflexivity|]. split; [|split; reflexivity].
  intros w0 t0 t1 H0 H1 H2 Q. cbn in H0, H2.
  repeat (destruct H0 as [<-|H0]; [cbn in H1; repeat (destruct H1 as [<-|H1]; [repeat (destruct H2 as [<-|H2]; [discriminate Q|]); destruct H2|]); destruct H1|]). destruct H0.
Qed.

(** ** C86: the condition on ties is needed there, too.  With the unrelated witness E the z of D and that of F are
    aligned differently, and the table gets narrower. *)
Definition undecided_wide : collation :=
  undecided ++ [words "F" ["1"; "2"; "3"; "s"; "t"; "u"; "q"; "r"; "z"]; words "G" ["4"; "5"; "6"; "p"; "q"; "4"; "5"; "6"; "1"; "2"; "3"; "k"]].

Theorem C86_ambiguous_refuted : exists c w t t', good_sigla (c ++ [w]) /\
  collate ascii_cc kahn sample_ratio c (plain_options "table") = Ok (OTable t) /\
  collate ascii_cc kahn sample_ratio (c ++ [w]) (plain_options "table") = Ok (OTable t') /\
  length (t_columns t') < length (t_columns t).
Proof.
  exists undecided_wide, (words "E" ["~"]).
  destruct (collate ascii_cc kahn sample_ratio undecided_wide (plain_options "table")) as [x|] eqn:E; [|exfalso; vm_compute in E; discriminate E].
  destruct (collate ascii_cc kahn sample_ratio (undecided_wide ++ [words "E" ["~"]]) (plain_options "table")) as [y|] eqn:E'; [|exfalso; vm_compute in E'; discriminate E'].
  vm_compute in E. injection E as <-. vm_compute in E'. injection E' as <-.
  eexists. eexists. split; [split; [repeat constructor; cbn; intuition discriminate|cbn; intuition discriminate]|].
  split; [reflexivity|]. split; [reflexivity|]. vm_compute; lia.
Qed.
Print Assumptions C86_ambiguous_refuted.
