(** The number of columns of an alignment table (C85, C86) and the rows of copies (C87). *)
From Verif Require Import Py Lib TokenModel SuffixModel IndexModel GraphModel AlignModel TableModel NearModel ExportModel
  CollateModel GraphSpec CollateSpec TableSpec GraphProof MergeProof AlignerProof RankProof TableProof CollateProof IndexProof StageProof
  ResultProof FactsProof IdentProof NearProof ReadProof CommonProof PairProof ExportProof SegProof OutputProof GrowSpec GrowProof Props_collate Props_grow ReadSpec Props_read
  TopoProof Samples SizeSpec SizeProof.
From Coq Require Import QArith String.
Open Scope list_scope.
Open Scope nat_scope.

(** ** C85: how many columns there are *)
Lemma rows_paths : forall c W rk m l, Forall2 carries c W -> t_rows (the_table W rk m l (map w_sigil c)) =
  map (fun p => construct_row (t_columns (the_table W rk m l (map w_sigil c))) (fst p)) W.
Proof.
  intros c W rk m l F. unfold the_table. cbn [t_rows t_columns]. rewrite <- (carries_sigla c W F) at 2. rewrite map_map. reflexivity.
Qed.


Theorem C85_at_least : forall cc topo ratio c o t, topo_ok topo -> good_sigla c -> o_near o = false -> o_segmentation o = false ->
  collate cc topo ratio c o = Ok (OTable t) -> longest_witness c <= List.length (t_columns t).
Proof.
  intros cc topo ratio c o t TO GS On Os H. unfold longest_witness, lengths. apply list_max_le. rewrite Forall_map. apply Forall_forall. intros w Hw.
  pose proof (C03_rows_lossless cc topo ratio c o t TO GS On Os H) as RL. destruct (Forall2_In_l _ _ _ _ RL Hw) as [ro [Hro [_ F]]].
  destruct (C05_table_shape cc topo ratio c o t TO GS H) as [_ [SH _]]. rewrite <- (proj1 (SH ro Hro)), (Forall2_len _ _ _ F).
  apply filled_le. clear - Hro TO GS On Os H.
  destruct (table_parts cc topo ratio TO c o t GS On H) as [g [W [rk [m [l [_ [GI [NW [CA [RO [-> [_ [ONE _]]]]]]]]]]]]]. specialize (ONE Os).
  rewrite (rows_paths c W rk m l CA) in Hro. apply in_map_iff in Hro as [p [<- Hp]]. rewrite (row_cells g W rk m l GI RO NW _ p Hp).
  rewrite Forall_map. apply Forall_forall. intros x _. destruct (cell_at rk p x) as [ts|] eqn:E; [|cbn; lia].
  apply (cell_at_some g W rk m l p x ts GI RO Hp) in E as [v [Hv _]]. destruct (ONE p v ts Hp Hv) as [k ->]. cbn. lia.
Qed.
Print Assumptions C85_at_least.

Theorem C85_at_most : forall cc topo ratio c o t, topo_ok topo -> good_sigla c -> o_near o = false ->
  collate cc topo ratio c o = Ok (OTable t) -> 1 <= List.length (t_columns t) <= all_words c.
Proof.
  intros cc topo ratio c o t TO GS On H. destruct (C05_table_shape cc topo ratio c o t TO GS H) as [_ [SH FL]].
  assert (RL : Forall2 (fun w ro => r_header ro = w_sigil w /\ Forall2 (came_from (w_sigil w)) (w_toks w) (row_tokens ro)) c (t_rows t)).
  { destruct (o_segmentation o) eqn:Os; [eapply C04_rows_lossless|eapply C03_rows_lossless]; eassumption. }
  split.
  - destruct (collate_not_empty cc topo ratio c o _ H) as [NC NE]. destruct c as [|w c]; [congruence|]. inversion RL as [|? ro ? rows [_ F] _ E1 E2]; subst.
    inversion NE as [|? ? N _]; subst. assert (Hro : In ro (t_rows t)) by (rewrite <- E2; left; reflexivity).
    rewrite <- (proj1 (SH ro Hro)). unfold row_tokens in F. destruct (r_cells ro); cbn; [|lia]. cbn in F. inversion F. congruence.
  - replace (all_words c) with (list_sum (map (fun r => List.length (flat_map cell_tokens r)) (map r_cells (t_rows t)))).
    + apply sum_filled.
      * rewrite Forall_map. apply Forall_forall. intros ro Hro. apply (SH ro Hro).
      * intros i Hi. destruct (FL i Hi) as [ro [ts [Hro E]]]. exists (r_cells ro), ts. split; [apply in_map; assumption|]. split; [assumption|].
        apply (proj2 (SH ro Hro)). apply nth_error_In in E. assumption.
    + unfold all_words, lengths. f_equal. clear - RL. induction RL as [|w ro c rows [_ F] RL IH]; [reflexivity|]. cbn [map]. rewrite IH. f_equal.
      symmetry. apply (Forall2_len _ _ _ F).
Qed.
Print Assumptions C85_at_most.

(** Witnesses that have no word in common are set side by side from the left. *)
Lemma paths_apart : forall g W c, graph_of g W -> good_sigla c -> nothing_in_common c -> Forall2 carries c W ->
  (forall p q v ts ts', In p W -> In q W -> In (v, ts) (snd p) -> In (v, ts') (snd q) -> map tk_str ts = map tk_str ts') ->
  forall p q v, In p W -> In q W -> In v (map fst (snd p)) -> In v (map fst (snd q)) -> p = q.
Proof.
  intros g W c GI GS NC CA SAME p q v Hp Hq Vp Vq. apply in_map_iff in Vp as [[v1 ts] [E1 Vp]]. apply in_map_iff in Vq as [[v2 ts'] [E2 Vq]].
  cbn [fst] in E1, E2. subst v1 v2. destruct (str_dec (fst p) (fst q)) as [E|N]; [apply (sigil_unique g W GI p q Hp Hq E)|exfalso].
  destruct (gi_on _ _ GI p v ts Hp Vp) as [_ N1]. pose proof (SAME p q v ts ts' Hp Hq Vp Vq) as ES.
  destruct ts as [|t ts]; [congruence|]. destruct ts' as [|t' ts']; [discriminate|]. cbn [map] in ES. injection ES as ES _.
  destruct (Forall2_In_r _ _ _ _ CA Hp) as [w [Hw [A1 A2]]]. destruct (Forall2_In_r _ _ _ _ CA Hq) as [w' [Hw' [B1 B2]]].
  assert (I1 : In t (flat_map snd (snd p))) by (apply in_flat_map; exists (v, t :: ts); split; [assumption|left; reflexivity]).
  assert (I2 : In t' (flat_map snd (snd q))) by (apply in_flat_map; exists (v, t' :: ts'); split; [assumption|left; reflexivity]).
  destruct (Forall2_In_r _ _ _ _ A2 I1) as [t0 [H0 [C1 _]]]. destruct (Forall2_In_r _ _ _ _ B2 I2) as [t0' [H0' [C2 _]]].
  apply (NC w w' t0 t0' Hw Hw'); congruence.
Qed.

(** The same for any collation whose witnesses share no vertex. *)
Definition kept_apart (W : list wpath) : Prop :=
  forall p q v, In p W -> In q W -> In v (map fst (snd p)) -> In v (map fst (snd q)) -> p = q.
Definition all_apart cc topo ratio (c : collation) (o : options) : Prop :=
  forall g r W, collate_graph cc topo ratio c o = Ok (g, r) -> graph_of g W -> Forall2 carries c W ->
    (forall p q v ts ts', In p W -> In q W -> In (v, ts) (snd p) -> In (v, ts') (snd q) -> map tk_str ts = map tk_str ts') -> kept_apart W.

Lemma apart_plain_table : forall cc topo ratio c o t, topo_ok topo -> good_sigla c -> all_apart cc topo ratio c o ->
  o_near o = false -> o_segmentation o = false -> collate cc topo ratio c o = Ok (OTable t) ->
  List.length (t_columns t) = longest_witness c /\
  Forall2 (fun w ro => r_header ro = w_sigil w /\
    exists ts, Forall2 (came_from (w_sigil w)) (w_toks w) ts /\
      r_cells ro = map (fun k => Some [k]) ts ++ repeat None (longest_witness c - List.length (w_toks w))) c (t_rows t).
Proof.
  intros cc topo ratio c o t TO GS NC On Os H.
  destruct (table_parts cc topo ratio TO c o t GS On H) as [g [W [rk [m [l [CG [GI [NW [CA [RO [-> [SAME [ONE _]]]]]]]]]]]]]. specialize (ONE Os).
  pose proof (NC g _ W CG GI CA SAME) as AL. pose proof (rank_end_max g W rk m l GI RO NW) as EM.
  assert (LEN : forall w p, In p W -> carries w p -> List.length (w_toks w) = List.length (snd p)).
  { intros w p Hp [_ F]. rewrite (Forall2_len _ _ _ F). assert (Q : forall v ts, In (v, ts) (snd p) -> exists k, ts = [k]) by (intros; eapply ONE; eassumption).
    clear - Q. induction (snd p) as [|[v ts] r IH]; [reflexivity|]. cbn [flat_map List.length]. rewrite app_length, IH by (intros; eapply Q; right; eassumption).
    destruct (Q v ts (or_introl eq_refl)) as [k ->]. reflexivity. }
  assert (WID : m - 2 = longest_witness c).
  { apply Nat.le_antisymm.
    - destruct (apart_end g W rk m l GI RO NW AL) as [p [Hp E]]. destruct (Forall2_In_r _ _ _ _ CA Hp) as [w [Hw CW]].
      replace (m - 2) with (List.length (w_toks w)) by (rewrite (LEN w p Hp CW); lia). unfold longest_witness, lengths.
      assert (Q := proj1 (list_max_le (map (fun w => List.length (w_toks w)) c) _) (le_n _)). rewrite Forall_map, Forall_forall in Q. apply Q. assumption.
    - unfold longest_witness, lengths. apply list_max_le. rewrite Forall_map. apply Forall_forall. intros w Hw.
      destruct (Forall2_In_l _ _ _ _ CA Hw) as [p [Hp CW]]. rewrite (LEN w p Hp CW). pose proof (apart_end_ge g W rk m l GI RO NW AL p Hp). lia. }
  split; [rewrite (table_width g W rk m l GI RO NW); assumption|].
  rewrite (rows_paths c W rk m l CA).
  assert (G : forall c0 W0, Forall2 carries c0 W0 -> (forall p, In p W0 -> In p W) -> Forall2 (fun w ro => r_header ro = w_sigil w /\
    exists ts, Forall2 (came_from (w_sigil w)) (w_toks w) ts /\
      r_cells ro = map (fun k => Some [k]) ts ++ repeat None (longest_witness c - List.length (w_toks w))) c0
    (map (fun p => construct_row (t_columns (the_table W rk m l (map w_sigil c))) (fst p)) W0)).
  { intros c0 W0 F. induction F as [|w p c0 W0 CW F IH]; intros I; cbn [map]; constructor; [|apply IH; intros; apply I; right; assumption].
    pose proof (I p (or_introl eq_refl)) as Hp. pose proof CW as [C1 C2]. split; [exact C1|]. exists (flat_map snd (snd p)). split; [assumption|].
    rewrite (row_cells g W rk m l GI RO NW _ p Hp), (apart_cells g W rk m l GI RO NW AL p Hp), WID, (LEN w p Hp CW). f_equal.
    assert (Q : forall v ts, In (v, ts) (snd p) -> exists k, ts = [k]) by (intros; eapply ONE; eassumption). clear - Q.
    induction (snd p) as [|[v ts] r IH]; [reflexivity|]. cbn [flat_map map snd]. destruct (Q v ts (or_introl eq_refl)) as [k ->]. cbn [app map].
    f_equal. apply IH. intros; eapply Q; right; eassumption. }
  apply G; auto.
Qed.

Theorem C85_nothing_in_common : forall cc topo ratio c o t, topo_ok topo -> good_sigla c -> nothing_in_common c ->
  o_near o = false -> o_segmentation o = false -> collate cc topo ratio c o = Ok (OTable t) ->
  List.length (t_columns t) = longest_witness c /\
  Forall2 (fun w ro => r_header ro = w_sigil w /\
    exists ts, Forall2 (came_from (w_sigil w)) (w_toks w) ts /\
      r_cells ro = map (fun k => Some [k]) ts ++ repeat None (longest_witness c - List.length (w_toks w))) c (t_rows t).
Proof.
  intros cc topo ratio c o t TO GS NC On Os H. apply (apart_plain_table cc topo ratio c o t TO GS); try assumption.
  intros g r W _ GI CA SAME. exact (paths_apart g W c GI GS NC CA SAME).
Qed.
Print Assumptions C85_nothing_in_common.

(** With segmentation each of them is one segment in the only column. *)
Lemma apart_seg_table : forall cc topo ratio c o t, topo_ok topo -> good_sigla c -> all_apart cc topo ratio c o ->
  o_near o = false -> o_segmentation o = true -> collate cc topo ratio c o = Ok (OTable t) ->
  List.length (t_columns t) = 1 /\
  Forall2 (fun w ro => r_header ro = w_sigil w /\
    exists ts, Forall2 (came_from (w_sigil w)) (w_toks w) ts /\ r_cells ro = [Some ts]) c (t_rows t).
Proof.
  intros cc topo ratio c o t TO GS NC On Os H. destruct (collate_not_empty cc topo ratio c o _ H) as [_ NE].
  destruct (table_parts cc topo ratio TO c o t GS On H) as [g [W [rk [m [l [CG [GI [NW [CA [RO [-> [SAME [_ MAX]]]]]]]]]]]]]. specialize (MAX Os).
  pose proof (NC g _ W CG GI CA SAME) as AL. pose proof (rank_end_max g W rk m l GI RO NW) as EM.
  assert (LEN : forall p, In p W -> List.length (snd p) = 1).
  { intros p Hp. pose proof (apart_joined g W GI AL MAX p Hp) as L.
    destruct (Forall2_In_r _ _ _ _ CA Hp) as [w [Hw [_ F]]]. unfold no_empty_witness in NE. rewrite Forall_forall in NE. specialize (NE w Hw).
    destruct (snd p); [cbn in F; inversion F; congruence|]. cbn [List.length] in *. lia. }
  assert (WID : m - 2 = 1). { destruct (apart_end g W rk m l GI RO NW AL) as [p [Hp E]]. rewrite (LEN p Hp) in E. lia. }
  split; [rewrite (table_width g W rk m l GI RO NW); assumption|].
  rewrite (rows_paths c W rk m l CA).
  assert (G : forall c0 W0, Forall2 carries c0 W0 -> (forall p, In p W0 -> In p W) -> Forall2 (fun w ro => r_header ro = w_sigil w /\
    exists ts, Forall2 (came_from (w_sigil w)) (w_toks w) ts /\ r_cells ro = [Some ts]) c0
    (map (fun p => construct_row (t_columns (the_table W rk m l (map w_sigil c))) (fst p)) W0)).
  { intros c0 W0 F. induction F as [|w p c0 W0 CW F IH]; intros I; cbn [map]; constructor; [|apply IH; intros; apply I; right; assumption].
    pose proof (I p (or_introl eq_refl)) as Hp. pose proof CW as [C1 C2]. split; [exact C1|]. exists (flat_map snd (snd p)). split; [assumption|].
    rewrite (row_cells g W rk m l GI RO NW _ p Hp), (apart_cells g W rk m l GI RO NW AL p Hp), WID, (LEN p Hp).
    pose proof (LEN p Hp) as L. destruct (snd p) as [|[v ts] [|? ?]]; try discriminate. cbn. rewrite app_nil_r. reflexivity. }
  apply G; auto.
Qed.

Theorem C85_one_segment_each : forall cc topo ratio c o t, topo_ok topo -> good_sigla c -> nothing_in_common c ->
  o_near o = false -> o_segmentation o = true -> collate cc topo ratio c o = Ok (OTable t) ->
  List.length (t_columns t) = 1 /\
  Forall2 (fun w ro => r_header ro = w_sigil w /\
    exists ts, Forall2 (came_from (w_sigil w)) (w_toks w) ts /\ r_cells ro = [Some ts]) c (t_rows t).
Proof.
  intros cc topo ratio c o t TO GS NC On Os H. apply (apart_seg_table cc topo ratio c o t TO GS); try assumption.
  intros g r W _ GI CA SAME. exact (paths_apart g W c GI GS NC CA SAME).
Qed.
Print Assumptions C85_one_segment_each.

Definition strangers : collation := [words "A" ["a"; "b"; "a"]; words "B" ["x"]; words "C" ["p"; "q"]].
Example C85_example : good_sigla strangers /\ nothing_in_common strangers /\ longest_witness strangers = 3 /\ all_words strangers = 6 /\
  table_of (collate ascii_cc kahn no_similarity strangers (plain_options "table")) =
    Ok [[[lit "a"]; [lit "b"]; [lit "a"]]; [[lit "x"]; []; []]; [[lit "p"]; [lit "q"]; []]] /\
  table_of (collate ascii_cc kahn no_similarity strangers (seg_options "table")) =
    Ok [[[lit "a"; lit "b"; lit "a"]]; [[lit "x"]]; [[lit "p"; lit "q"]]].
Proof.
  split; [split; [repeat constructor; cbn; intuition discriminate|cbn; intuition discriminate]|]. split; [|repeat split; vm_compute; reflexivity].
  intros w w' t t' Hw Hw' N Ht Ht'. unfold strangers in Hw, Hw'. cbn [In] in Hw, Hw'.
  repeat (destruct Hw as [<-|Hw]); try contradiction; repeat (destruct Hw' as [<-|Hw']); try contradiction; cbn [w_sigil words] in N; try congruence;
    cbn [w_toks words map In] in Ht, Ht'; repeat (destruct Ht as [<-|Ht]); try contradiction; repeat (destruct Ht' as [<-|Ht']); try contradiction; discriminate.
Qed.

(** ** C86: a further witness does not make the table narrower *)
Lemma graph_output : forall cc topo ratio c o g r, collate_graph cc topo ratio c o = Ok (g, r) ->
  collate cc topo ratio c (set_output o (lit "graph")) = Ok (OGraph g).
Proof. intros cc topo ratio c o g r H. unfold collate. change (collate_graph cc topo ratio c (set_output o (lit "graph"))) with (collate_graph cc topo ratio c o). rewrite H. reflexivity. Qed.

Lemma plain_first : forall cc topo ratio c o g r, o_near o = false -> o_segmentation o = true -> collate_graph cc topo ratio c o = Ok (g, r) ->
  exists g0 r0, collate_graph cc topo ratio c (set_segmentation o false) = Ok (g0, r0).
Proof.
  intros cc topo ratio c o g r On Os H. unfold collate_graph in *. cbn [set_segmentation o_astar o_filter o_transp o_near o_segmentation].
  rewrite On in *. apply bind_ok in H as [[ti g1] [H1 H]]. rewrite H1. cbn [bind]. apply bind_ok in H as [r1 [H2 _]]. rewrite H2. cbn [bind]. eauto.
Qed.

Theorem C86_not_narrower : forall cc topo ratio c more o t t', topo_ok topo -> good_sigla (c ++ more) ->
  o_near o = false -> o_transp o = false -> o_filter o = None ->
  collate cc topo ratio c o = Ok (OTable t) -> collate cc topo ratio (c ++ more) o = Ok (OTable t') ->
  (forall j gj, S j < List.length c -> stage topo None c j = Ok gj -> unambiguous gj) ->
  List.length (t_columns t) <= List.length (t_columns t').
Proof.
  intros cc topo ratio c more o t t' TO GS On Ot Of H H' U.
  assert (GC : good_sigla c).
  { destruct GS as [A B]. rewrite map_app in A, B. split; [apply NoDup_app_iff in A; apply A|]. intro I. apply B. apply in_or_app. left. assumption. }
  destruct (table_parts cc topo ratio TO c o t GC On H) as [g [W [rk [m [l [G1 [GI [NW [CA [RO [-> _]]]]]]]]]]].
  destruct (table_parts cc topo ratio TO (c ++ more) o t' GS On H') as [g' [W' [rk' [m' [l' [G1' [GI' [NW' [CA' [RO' [-> _]]]]]]]]]]].
  rewrite (table_width g W rk m l GI RO NW), (table_width g' W' rk' m' l' GI' RO' NW').
  pose proof (rank_end_max g W rk m l GI RO NW) as EM. pose proof (rank_end_max g' W' rk' m' l' GI' RO' NW') as EM'.
  enough (exists n, rk v_end <= n /\ path_len g' n v_start v_end) as [n [L P]].
  { apply (proj2 (longest g' W' rk' m' l' GI' RO' NW' v_end (end_In _ _ GI'))) in P. lia. }
  destruct (longest g W rk m l GI RO NW v_end (end_In _ _ GI)) as [P _]. clear EM EM'.
  destruct (o_segmentation o) eqn:Os.
  - destruct (plain_first cc topo ratio c o g _ On Os G1) as [g0 [r0 G0]]. destruct (plain_first cc topo ratio (c ++ more) o g' _ On Os G1') as [g0' [r0' G0']].
    assert (SO : set_segmentation o true = o) by (destruct o; cbn in *; subst; reflexivity).
    destruct (segmentation_spec cc topo ratio TO c o g0 r0 GC On G0) as [g2 [r2 [V0 [V [part [A [_ [GI0 [J MAX]]]]]]]]].
    destruct (segmentation_spec cc topo ratio TO (c ++ more) o g0' r0' GS On G0') as [g2' [r2' [V0' [V' [part' [A' [_ [GI0' [J' MAX']]]]]]]]].
    rewrite SO in A, A'. assert (g2 = g) by congruence. assert (g2' = g') by congruence. subst g2 g2'.
    assert (GR : grown (map w_sigil c) g0 g0').
    { apply (C64_further_witnesses cc topo ratio c more (set_output (set_segmentation o false) (lit "graph")) g0 g0' TO GS); try assumption; try reflexivity;
        solve [apply graph_output with (r := r0); assumption | apply graph_output with (r := r0'); assumption]. }
    destruct (ranking_spec topo g0 V0 TO GI0) as [k1 [m1 [l1 [_ [_ RO1]]]]]. destruct (ranking_spec topo g0' V0' TO GI0') as [k2 [m2 [l2 [_ [_ RO2]]]]].
    apply (end_refined cc g0 g0' V0 V0' g g' V V' part part' J J' MAX (gr_edge _ _ _ GR) k1 m1 l1 k2 m2 l2 RO1 RO2 _ P).
  - assert (GR : grown (map w_sigil c) g g').
    { apply (C64_further_witnesses cc topo ratio c more (set_output o (lit "graph")) g g' TO GS); try assumption;
        [apply graph_output with (r := ranking_for rk m l)|apply graph_output with (r := ranking_for rk' m' l')]; assumption. }
    exists (rk v_end). split; [lia|]. apply (path_mono g g' _ _ _ (gr_edge _ _ _ GR) P).
Qed.
Print Assumptions C86_not_narrower.

(** For one or two witnesses there is no condition. *)
Theorem C86_first_two : forall cc topo ratio c more o t t', topo_ok topo -> good_sigla (c ++ more) -> List.length c <= 2 ->
  o_near o = false -> o_transp o = false -> o_filter o = None ->
  collate cc topo ratio c o = Ok (OTable t) -> collate cc topo ratio (c ++ more) o = Ok (OTable t') ->
  List.length (t_columns t) <= List.length (t_columns t').
Proof.
  intros cc topo ratio c more o t t' TO GS L On Ot Of H H'. apply (C86_not_narrower cc topo ratio c more o t t' TO GS On Ot Of H H').
  intros j gj Hj Sj. assert (j = 0) by lia. subst j. apply (first_stage_unambiguous topo None c gj TO); [|assumption].
  destruct GS as [A B]. rewrite map_app in A, B. split; [apply NoDup_app_iff in A; apply A|]. intro I. apply B. apply in_or_app. left. assumption.
Qed.
Print Assumptions C86_first_two.

Example C86_example : exists t t', good_sigla ([words "A" ["a"; "b"]; words "B" ["a"; "c"; "b"]] ++ [words "C" ["a"; "x"; "y"; "b"]]) /\
  collate ascii_cc kahn no_similarity [words "A" ["a"; "b"]; words "B" ["a"; "c"; "b"]] (seg_options "table") = Ok (OTable t) /\
  collate ascii_cc kahn no_similarity ([words "A" ["a"; "b"]; words "B" ["a"; "c"; "b"]] ++ [words "C" ["x"; "y"; "a"; "b"]]) (seg_options "table") = Ok (OTable t') /\
  List.length (t_columns t) = 3 /\ List.length (t_columns t') = 4.
Proof.
  destruct (collate ascii_cc kahn no_similarity [words "A" ["a"; "b"]; words "B" ["a"; "c"; "b"]] (seg_options "table")) as [x|] eqn:E; [|exfalso; vm_compute in E; discriminate E].
  destruct (collate ascii_cc kahn no_similarity ([words "A" ["a"; "b"]; words "B" ["a"; "c"; "b"]] ++ [words "C" ["x"; "y"; "a"; "b"]]) (seg_options "table")) as [y|] eqn:E'; [|exfalso; vm_compute in E'; discriminate E'].
  vm_compute in E. injection E as <-. vm_compute in E'. injection E' as <-. eexists. eexists.
  split; [split; [repeat constructor; cbn; intuition discriminate|cbn; intuition discriminate]|]. repeat split; reflexivity.
Qed.

(** ** C87: the row of a copy *)
Lemma cells_single : forall cc topo ratio c o t, topo_ok topo -> good_sigla c -> o_near o = false -> o_segmentation o = false ->
  collate cc topo ratio c o = Ok (OTable t) -> forall ro i ts, In ro (t_rows t) -> nth_error (r_cells ro) i = Some (Some ts) -> exists k, ts = [k].
Proof.
  intros cc topo ratio c o t TO GS On Os H ro i ts Hro Hi.
  destruct (table_parts cc topo ratio TO c o t GS On H) as [g [W [rk [m [l [_ [GI [NW [CA [RO [-> [_ [ONE _]]]]]]]]]]]]]. specialize (ONE Os).
  rewrite (rows_paths c W rk m l CA) in Hro. apply in_map_iff in Hro as [p [<- Hp]]. rewrite (row_cells g W rk m l GI RO NW _ p Hp) in Hi.
  apply nth_error_In, in_map_iff in Hi as [x [E _]]. apply (cell_at_some g W rk m l p x ts GI RO Hp) in E as [v [Hv _]]. apply (ONE p v ts Hp Hv).
Qed.

Lemma filled_same : forall (l l0 : list (option (list str))), List.length l = List.length l0 ->
  (forall i x, nth_error l i = Some (Some x) -> nth_error l0 i = Some (Some x)) ->
  List.length (filter (fun c => match c with Some _ => true | None => false end) l) = List.length (filter (fun c => match c with Some _ => true | None => false end) l0) ->
  l = l0.
Proof.
  assert (LE : forall (l l0 : list (option (list str))), List.length l = List.length l0 -> (forall i x, nth_error l i = Some (Some x) -> nth_error l0 i = Some (Some x)) ->
    List.length (filter (fun c => match c with Some _ => true | None => false end) l) <= List.length (filter (fun c => match c with Some _ => true | None => false end) l0)).
  { induction l as [|a l IH]; intros [|b l0] L F; try discriminate; [apply le_n|]. injection L as L.
    specialize (IH l0 L (fun i x Q => F (S i) x Q)). cbn [filter]. destruct a as [x|].
    - pose proof (F 0 x eq_refl) as Q. cbn in Q. injection Q as ->. cbn [List.length]. lia.
    - destruct b; cbn [List.length]; lia. }
  induction l as [|a l IH]; intros [|b l0] L F N; try discriminate; [reflexivity|]. injection L as L.
  assert (F' : forall i x, nth_error l i = Some (Some x) -> nth_error l0 i = Some (Some x)) by (intros i x Q; apply (F (S i) x Q)).
  cbn [filter] in N. destruct a as [x|].
  - pose proof (F 0 x eq_refl) as Q. cbn in Q. injection Q as ->. f_equal. apply IH; auto.
  - destruct b as [y|]; [exfalso; specialize (LE l l0 L F'); cbn [List.length] in N; lia|]. f_equal. apply IH; auto.
Qed.

Lemma filled_count : forall (l : list cell), (forall i ts, nth_error l i = Some (Some ts) -> exists k, ts = [k]) ->
  List.length (filter (fun c => match c with Some _ => true | None => false end) (map cell_words l)) = List.length (flat_map cell_tokens l).
Proof.
  induction l as [|[ts|] l IH]; intros F; [reflexivity| |]; cbn [map cell_words option_map filter flat_map cell_tokens].
  - rewrite app_length. destruct (F 0 ts eq_refl) as [k ->]. cbn [List.length]. rewrite IH; [reflexivity|]. intros i ts Q. apply (F (S i) ts Q).
  - cbn [app]. apply IH. intros i ts Q. apply (F (S i) ts Q).
Qed.

Theorem C87_copy_row_partial : forall cc topo ratio c w w0 o t t' r0, topo_ok topo -> good_sigla (c ++ [w]) ->
  o_near o = false -> o_segmentation o = false -> o_transp o = false -> o_filter o = None ->
  collate cc topo ratio c o = Ok (OTable t) -> collate cc topo ratio (c ++ [w]) o = Ok (OTable t') ->
  (forall j gj, S j < List.length c -> stage topo None c j = Ok gj -> unambiguous gj) ->
  In w0 c -> map t0_str (w_toks w) = map t0_str (w_toks w0) -> row_of t (w_sigil w0) r0 -> words_stay t r0 ->
  exists r, row_of t' (w_sigil w) r /\ row_of t' (w_sigil w0) r0 /\ row_words r = row_words r0.
Proof.
  intros cc topo ratio c w w0 o t t' r0 TO GS On Os Ot Of H H' U Hw0 EQ [R1 R2] ST.
  assert (GC : good_sigla c).
  { destruct GS as [A B]. rewrite map_app in A, B. split; [apply NoDup_app_iff in A; apply A|]. intro I. apply B. apply in_or_app. left. assumption. }
  assert (XC : excerpt (map t0_str (w_toks w)) (map t0_str (w_toks w0))).
  { rewrite EQ. clear. induction (map t0_str (w_toks w0)); constructor; assumption. }
  destruct (C67_table cc topo ratio c w w0 o t t' TO GS On Os Ot Of H H' U Hw0 XC) as [LC [r [ER [HR SAME]]]].
  assert (Hr : In r (t_rows t')) by (rewrite ER; apply in_or_app; right; left; reflexivity).
  assert (Hr0 : In r0 (t_rows t')) by (rewrite ER; apply in_or_app; left; assumption).
  exists r. split; [split; assumption|]. split; [split; assumption|].
  pose proof (C03_rows_lossless cc topo ratio c o t TO GC On Os H) as L0. pose proof (C03_rows_lossless cc topo ratio _ o t' TO GS On Os H') as L1.
  assert (W0 : map tk_str (row_tokens r0) = map t0_str (w_toks w0)).
  { destruct (Forall2_In_r _ _ _ _ L0 R1) as [w1 [Hw1 [Q1 Q2]]]. assert (w1 = w0).
    { destruct GC as [ND _]. assert (E : w_sigil w1 = w_sigil w0) by congruence. clear - ND Hw1 Hw0 E. induction c as [|x c IH]; [contradiction|]. cbn in ND. inversion ND; subst.
      destruct Hw1 as [->|Hw1], Hw0 as [->|Hw0]; auto; exfalso; apply H1; [rewrite E|rewrite <- E]; apply in_map; assumption. }
    subst w1. clear - Q2. induction Q2 as [|a b la lb [Q _] Q2 IH]; [reflexivity|]. cbn [map]. congruence. }
  assert (W1 : map tk_str (row_tokens r) = map t0_str (w_toks w)).
  { rewrite ER in L1. apply Forall2_app_inv_l in L1 as [la [lb [_ [Q2 Q3]]]]. inversion Q2 as [|? x ? y [_ Q4] Q5]; subst. inversion Q5; subst.
    apply app_inj_tail in Q3 as [_ ->]. clear - Q4. induction Q4 as [|a b la lb [Q _] Q4 IH]; [reflexivity|]. cbn [map]. congruence. }
  destruct (C05_table_shape cc topo ratio c o t TO GC H) as [_ [SH _]]. destruct (C05_table_shape cc topo ratio _ o t' TO GS H') as [_ [SH' _]].
  pose proof (cells_single cc topo ratio _ o t' TO GS On Os H' r) as S1. pose proof (cells_single cc topo ratio _ o t' TO GS On Os H' r0) as S0.
  unfold row_words. apply filled_same.
  - rewrite !map_length. transitivity (List.length (t_columns t')); [apply (proj1 (SH' r Hr))|symmetry; apply (proj1 (SH' r0 Hr0))].
  - intros i x Q. rewrite nth_error_map in Q. destruct (nth_error (r_cells r) i) as [[ts|]|] eqn:Ei; try discriminate. cbn in Q. injection Q as <-.
    destruct (S1 i ts Hr Ei) as [k ->]. destruct (SAME i [k] Ei) as [r1 [ts1 [Hr1 [E1 EW]]]].
    assert (Ik : In (tk_str k) (map tk_str (row_tokens r0))).
    { rewrite W0, <- EQ, <- W1. apply in_map. unfold row_tokens. apply in_flat_map. exists (Some [k]). split; [apply nth_error_In in Ei; assumption|left; reflexivity]. }
    apply in_map_iff in Ik as [k0 [Ek Ik]]. unfold row_tokens in Ik. apply in_flat_map in Ik as [cl [Hc Ik]]. destruct cl as [ts0|]; [|contradiction].
    apply In_nth_error in Hc as [j Ej]. destruct (S0 j ts0 Hr0 Ej) as [k1 ->]. destruct Ik as [->|[]].
    assert (j = i). { apply (ST j i r1 [k0] ts1 Hr1 Ej E1). rewrite EW. cbn. congruence. }
    subst j. rewrite nth_error_map, Ej. cbn. congruence.
  - rewrite !filled_count by (intros; eauto). fold (row_tokens r) (row_tokens r0). rewrite <- (map_length tk_str), W1, EQ, <- W0. apply map_length.
Qed.
Print Assumptions C87_copy_row_partial.

(** Otherwise the row of a copy can differ, even if it comes immediately after its original. *)
Definition has_rows (t : table) (sg sg' : str) (b : bool) : Prop :=
  exists r r', row_of t sg r /\ row_of t sg' r' /\ if b then row_words r = row_words r' else row_words r <> row_words r'.

Theorem C87_copy_refuted : exists c w w0 t', good_sigla (c ++ [w]) /\ In w0 c /\ map t0_str (w_toks w) = map t0_str (w_toks w0) /\
  collate ascii_cc kahn no_similarity (c ++ [w]) (plain_options "table") = Ok (OTable t') /\ has_rows t' (w_sigil w0) (w_sigil w) false.
Proof.
  exists [words "A" ["a"]; words "B" ["a"; "a"; "b"; "a"]], (words "C" ["a"]), (words "A" ["a"]).
  destruct (collate ascii_cc kahn no_similarity ([words "A" ["a"]; words "B" ["a"; "a"; "b"; "a"]] ++ [words "C" ["a"]]) (plain_options "table")) as [x|] eqn:E; [|exfalso; vm_compute in E; discriminate E].
  vm_compute in E. injection E as <-. eexists.
  split; [split; [repeat constructor; cbn; intuition discriminate|cbn; intuition discriminate]|]. split; [left; reflexivity|]. split; [reflexivity|]. split; [reflexivity|].
  eexists. eexists. split; [split; [left; reflexivity|reflexivity]|]. split; [split; [right; right; left; reflexivity|reflexivity]|]. vm_compute. discriminate.
Qed.
Print Assumptions C87_copy_refuted.

Theorem C87_next_copy_refuted : exists c w0 w t', good_sigla (c ++ [w0; w]) /\ map t0_str (w_toks w) = map t0_str (w_toks w0) /\
  collate ascii_cc kahn no_similarity (c ++ [w0; w]) (plain_options "table") = Ok (OTable t') /\ has_rows t' (w_sigil w0) (w_sigil w) false.
Proof.
  exists [words "A" ["a"; "a"; "c"; "e"]; words "B" ["c"; "d"; "d"; "a"]], (words "C" ["b"; "c"; "d"; "a"]), (words "D" ["b"; "c"; "d"; "a"]).
  destruct (collate ascii_cc kahn no_similarity ([words "A" ["a"; "a"; "c"; "e"]; words "B" ["c"; "d"; "d"; "a"]] ++ [words "C" ["b"; "c"; "d"; "a"]; words "D" ["b"; "c"; "d"; "a"]]) (plain_options "table")) as [x|] eqn:E; [|exfalso; vm_compute in E; discriminate E].
  vm_compute in E. injection E as <-. eexists.
  split; [split; [repeat constructor; cbn; intuition discriminate|cbn; intuition discriminate]|]. split; [reflexivity|]. split; [reflexivity|].
  eexists. eexists. split; [split; [right; right; left; reflexivity|reflexivity]|]. split; [split; [right; right; right; left; reflexivity|reflexivity]|]. vm_compute. discriminate.
Qed.
Print Assumptions C87_next_copy_refuted.

(** The order of the witnesses counts: two witnesses exchanged can need another number of columns. *)
Theorem C87_order_refuted : exists w1 w2 t t', good_sigla [w1; w2] /\
  collate ascii_cc kahn no_similarity [w1; w2] (plain_options "table") = Ok (OTable t) /\
  collate ascii_cc kahn no_similarity [w2; w1] (plain_options "table") = Ok (OTable t') /\
  List.length (t_columns t) <> List.length (t_columns t').
Proof.
  exists (words "A" ["a"; "a"]), (words "B" ["a"; "b"]).
  destruct (collate ascii_cc kahn no_similarity [words "A" ["a"; "a"]; words "B" ["a"; "b"]] (plain_options "table")) as [x|] eqn:E; [|exfalso; vm_compute in E; discriminate E].
  destruct (collate ascii_cc kahn no_similarity [words "B" ["a"; "b"]; words "A" ["a"; "a"]] (plain_options "table")) as [y|] eqn:E'; [|exfalso; vm_compute in E'; discriminate E'].
  vm_compute in E. injection E as <-. vm_compute in E'. injection E' as <-. eexists. eexists.
  split; [split; [repeat constructor; cbn; intuition discriminate|cbn; intuition discriminate]|]. split; [reflexivity|]. split; [reflexivity|]. discriminate.
Qed.
Print Assumptions C87_order_refuted.

Example C87_example : exists t r0, 
  collate ascii_cc kahn no_similarity [words "A" ["a"; "b"; "c"]; words "B" ["a"; "x"; "y"; "c"]] (plain_options "table") = Ok (OTable t) /\
  row_of t (lit "A") r0 /\ words_stay t r0 /\ In (words "A" ["a"; "b"; "c"]) [words "A" ["a"; "b"; "c"]; words "B" ["a"; "x"; "y"; "c"]] /\
  forall j gj, S j < 2 -> stage kahn None [words "A" ["a"; "b"; "c"]; words "B" ["a"; "x"; "y"; "c"]] j = Ok gj -> unambiguous gj.
Proof.
  destruct (collate ascii_cc kahn no_similarity [words "A" ["a"; "b"; "c"]; words "B" ["a"; "x"; "y"; "c"]] (plain_options "table")) as [x|] eqn:E; [|exfalso; vm_compute in E; discriminate E].
  vm_compute in E. injection E as <-. eexists. eexists. split; [reflexivity|]. split; [split; [left; reflexivity|reflexivity]|]. split; [|split; [left; reflexivity|]].
  - intros i j ro ts ts' Hro Hi Hj EQ. cbn in Hro. destruct Hro as [<-|[<-|[]]]; cbn in Hi, Hj;
    do 5 (try destruct i as [|i]); do 5 (try destruct j as [|j]); cbn in Hi, Hj; try discriminate Hi; try discriminate Hj; try reflexivity;
    injection Hi as <-; injection Hj as <-; discriminate EQ.
  - intros j gj Hj Sj. assert (j = 0) by lia. subst j. apply (first_stage_unambiguous kahn None _ gj kahn_topo_ok) with (2 := Sj).
    split; [repeat constructor; cbn; intuition discriminate|cbn; intuition discriminate].
Qed.
