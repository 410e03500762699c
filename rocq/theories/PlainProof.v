(** Plain-text witnesses; positions of tokens; options that make collate fail. *)
From Verif Require Import Py TokenModel TokenSpec TokenProof SuffixModel IndexModel GraphModel AlignModel TableModel NearModel ExportModel
  CollateModel Lib GraphSpec GraphProof MergeProof RankProof TableSpec TableProof SuffixSpec SuffixProof IndexProof BlockText InstProof CubeProof
  AlignProof AlignerProof CollateProof JoinProof CollateSpec ResultProof ErrorProof FactsProof OutputProof.
From Coq Require Import Permutation Relations QArith.
Open Scope list_scope.
Open Scope nat_scope.

(** ** Plain text *)
Lemma uint_digits : forall u, Forall (fun c => (48 <= c <= 57)%N) (uint_chars u).
Proof. induction u; cbn [uint_chars]; constructor; auto; lia. Qed.

Lemma str_of_nat_digit : forall n, exists c s, str_of_nat n = c :: s /\ (48 <= c <= 57)%N.
Proof.
  intros n. pose proof (uint_digits (Nat.to_uint n)) as F. unfold str_of_nat.
  destruct (uint_chars (Nat.to_uint n)) as [|c s] eqn:E.
  - exfalso. assert (Z : Nat.to_uint n = Decimal.Nil) by (destruct (Nat.to_uint n); cbn in E; congruence).
    pose proof (DecimalNat.Unsigned.of_to n) as O. rewrite Z in O. cbn in O. subst n. cbn in Z. discriminate.
  - exists c, s. inversion F; subst. auto.
Qed.

Lemma plain_no_marker : forall cc t post k, dollar_apart cc -> legal_token cc t post -> rstrip cc t <> lit "$" ++ str_of_nat k.
Proof.
  intros cc t post k [D1 D2] L E. destruct (str_of_nat_digit k) as [c [s [E2 C]]]. rewrite E2 in E.
  destruct (rstrip_spec cc t) as [sp [T _]]. rewrite E in T. change (lit "$" ++ c :: s) with (36%N :: c :: s) in T.
  destruct L as [w spc Ew W1 W2 W3 _ _|T1 T2 _].
  - destruct w as [|a w]; [congruence|]. rewrite Ew in T. cbn [app] in T. injection T as -> _.
    inversion W2; subst. congruence.
  - rewrite T in T2. cbn [app] in T2. inversion T2 as [|? ? _ T3]; subst. inversion T3 as [|? ? T4 _]; subst.
    rewrite (D2 c C) in T4. discriminate.
Qed.

Definition plain_witness_of (cc : cclass) (x : str * str) : witness :=
  {| w_sigil := fst x; w_toks := map (plain_token cc) (tokenize cc (snd x)) |}.

Lemma plain_collation_spec : forall cc l, plain_collation cc l = Ok (map (plain_witness_of cc) l).
Proof.
  intros cc l. unfold plain_collation.
  assert (G : forall l c, foldM (fun c '(sg, text) => add_plain_witness cc c sg text) l c = Ok (c ++ map (plain_witness_of cc) l)).
  { clear l. induction l as [|[sg t] l IH]; intros c; cbn [foldM map]; [rewrite app_nil_r; reflexivity|].
    rewrite plain_witness. cbn [bind]. rewrite IH, <- app_assoc. reflexivity. }
  apply (G l []).
Qed.

Lemma plain_wellformed : forall cc l, dollar_apart cc -> Forall (fun x => snd x <> []) l ->
  let c := map (plain_witness_of cc) l in
  map w_sigil c = map fst l /\ no_empty_witness c /\ no_markers c /\ has_texts c.
Proof.
  intros cc l D F c. split; [|split; [|split]].
  - unfold c. rewrite map_map. reflexivity.
  - unfold no_empty_witness, c. rewrite Forall_map. apply Forall_impl with (2 := F). intros [sg t] H. cbn [plain_witness_of w_toks snd] in *.
    intros C. apply map_eq_nil in C. apply H. rewrite <- (tokenize_concat cc t), C. reflexivity.
  - intros w t k Hw Ht. unfold c in Hw. apply in_map_iff in Hw as [[sg tx] [<- _]]. cbn [plain_witness_of w_toks snd] in Ht.
    apply in_map_iff in Ht as [piece [<- Hp]]. apply In_nth_error in Hp as [i Hi]. cbn [plain_token t0_str].
    apply (plain_no_marker cc piece _ k D (tokenize_legal cc tx i piece Hi)).
  - intros w t Hw Ht. unfold c in Hw. apply in_map_iff in Hw as [[sg tx] [<- _]]. cbn [plain_witness_of w_toks snd] in Ht.
    apply in_map_iff in Ht as [piece [<- Hp]]. exists piece. reflexivity.
Qed.

(** ** Positions *)
Lemma joined_flat : forall cc g0 W0 g W part, joined cc g0 W0 g W part ->
  map (fun p : wpath => flat_map snd (snd p)) W = map (fun p : wpath => flat_map snd (snd p)) W0.
Proof.
  intros cc g0 W0 g W part J. pose proof (jo_paths _ _ _ _ _ _ J) as F. clear J.
  induction F as [|p0 p W0' W' [_ [E L]] F IH]; [reflexivity|]. cbn [map]. rewrite E, unfold_tokens by exact L. f_equal. exact IH.
Qed.

Lemma paths_flat : forall L W, Forall2 path_for L W -> map (fun p : wpath => flat_map snd (snd p)) W = map iw_toks L.
Proof.
  intros L W F. induction F as [|iw p L W [_ [path [H1 H2]]] F IH]; [reflexivity|]. cbn [map]. rewrite H2, steps_tokens by assumption. f_equal. exact IH.
Qed.

Lemma stamp_positions : forall sg ts pos, map tk_pos (stamp sg pos ts) = seq pos (length ts).
Proof. induction ts as [|t ts IH]; intros pos; [reflexivity|]. cbn [stamp map length seq]. f_equal. rewrite IH. f_equal. lia. Qed.

Lemma stamped_positions : forall c pos, NoDup (map tk_pos (flat_map iw_toks (stamped pos c))) /\
  forall p, In p (map tk_pos (flat_map iw_toks (stamped pos c))) -> pos <= p.
Proof.
  induction c as [|w c IH]; intros pos; [split; [constructor|contradiction]|]. cbn [stamped flat_map iw_toks].
  rewrite map_app, stamp_positions. destruct (IH (pos + length (w_toks w) + 1)) as [I1 I2]. split.
  - apply NoDup_app_iff. split; [apply seq_NoDup|]. split; [assumption|]. intros x H1 H2. apply in_seq in H1. apply I2 in H2. lia.
  - intros p Hp. apply in_app_iff in Hp as [Hp|Hp]; [apply in_seq in Hp; lia|apply I2 in Hp; lia].
Qed.

Section Rows.
  Variables (cc : cclass) (topo : graph -> res (list vid)) (ratio : str -> str -> Q).
  Hypothesis TO : topo_ok topo.

  Theorem rows_stamped : forall c o t, good_sigla c -> o_near o = false -> collate cc topo ratio c o = Ok (OTable t) ->
    map row_tokens (t_rows t) = map iw_toks (stamped 0 c).
  Proof.
    intros c o t [ND NE] Hn H. destruct (collate_table_inv cc topo ratio c o t H) as [g [r [H1 H2]]].
    destruct (result_spec cc topo ratio TO c o g r ND NE H1) as [ti [st [W0 [W [part RS]]]]].
    destruct (rs_near _ _ _ _ _ _ _ _ _ _ _ RS Hn) as [N0 [rk [m [l [RO E]]]]]. subst r.
    pose proof (jo_graph _ _ _ _ _ _ (rs_joined _ _ _ _ _ _ _ _ _ _ _ RS)) as GI.
    assert (NN : without_near g = g) by (destruct g; cbn in N0; subst; reflexivity). rewrite NN in GI.
    rewrite (table_spec g W rk m l GI RO) in H2. injection H2 as <-.
    rewrite <- (ix_wits _ _ (rs_index _ _ _ _ _ _ _ _ _ _ _ RS)).
    rewrite <- (paths_flat _ _ (al_paths _ _ _ _ _ (rs_aligner _ _ _ _ _ _ _ _ _ _ _ RS))).
    rewrite <- (joined_flat _ _ _ _ _ _ (rs_joined _ _ _ _ _ _ _ _ _ _ _ RS)).
    pose proof (carries_sigla c W (rs_carries _ _ _ _ _ _ _ _ _ _ _ RS)) as SG.
    unfold the_table. cbn [t_rows]. rewrite map_map, <- SG, map_map. apply map_ext_in. intros p Hp.
    pose proof (row_of g W rk m l GI RO (map fst W) p Hp) as X. unfold the_table in X. cbn [t_columns] in X. exact X.
  Qed.

  Theorem row_positions : forall c o t, good_sigla c -> o_near o = false -> collate cc topo ratio c o = Ok (OTable t) ->
    NoDup (map tk_pos (flat_map row_tokens (t_rows t))).
  Proof.
    intros c o t G Hn H. pose proof (rows_stamped c o t G Hn H) as E. rewrite flat_map_concat_map, E, <- flat_map_concat_map. apply stamped_positions.
  Qed.
End Rows.

(** ** Options *)
Section Options.
  Variables (cc : cclass) (topo : graph -> res (list vid)) (ratio : str -> str -> Q).

  Lemma astar_fails : forall c o, o_astar o = true -> collate cc topo ratio c o = Raise TypeError.
  Proof. intros c o H. unfold collate, collate_graph. rewrite H. reflexivity. Qed.

  Lemma empty_fails : forall c o, o_astar o = false -> Exists (fun w => w_toks w = []) c -> collate cc topo ratio c o = Raise AssertionError.
  Proof. intros c o A H. unfold collate, collate_graph, aligner_collate. rewrite A, (prepare_empty c H). reflexivity. Qed.

  Lemma none_fails : forall o, o_astar o = false -> collate cc topo ratio [] o = Raise IndexError.
  Proof. intros o A. unfold collate, collate_graph, aligner_collate. rewrite A, prepare_none. reflexivity. Qed.

  Lemma near_segmentation_never : forall c o x, o_near o = true -> o_segmentation o = true -> collate cc topo ratio c o <> Ok x.
  Proof.
    intros c o x N S H. unfold collate, collate_graph in H. rewrite N, S in H. apply bind_ok in H as [[g r] [H _]].
    apply bind_ok in H as [[ti g1] [_ H]]. apply bind_ok in H as [rk [_ H]]. discriminate.
  Qed.

  Hypothesis TO : topo_ok topo.

  Definition set_near (o : options) (b : bool) : options :=
    {| o_output := o_output o; o_vertical := o_vertical o; o_segmentation := o_segmentation o; o_near := b;
       o_astar := o_astar o; o_transp := o_transp o; o_filter := o_filter o; o_indent := o_indent o |}.

  Lemma near_segmentation_error : forall c o, c <> [] -> good_sigla c -> no_empty_witness c -> ~ marker_clash (o_filter o) c ->
    o_astar o = false -> o_transp o = false -> o_near o = true -> o_segmentation o = true ->
    collate cc topo ratio c o = Raise SegmentationError.
  Proof.
    intros c o N [ND NG] NE NM O1 O2 O3 O4.
    destruct (collate_graph_total cc topo ratio TO c (set_near o false) N ND NG NE NM O1 O2 eq_refl) as [g [r E]].
    unfold collate, collate_graph in *. cbn [set_near o_astar o_filter o_transp o_near o_segmentation] in E. rewrite O3, O4.
    apply bind_ok in E as [[ti g1] [E1 E]]. rewrite E1. cbn [bind]. apply bind_ok in E as [rk [E2 E]]. rewrite E2. reflexivity.
  Qed.

  Lemma transposition_fails : forall c o, 2 <= length c -> good_sigla c -> no_empty_witness c -> ~ marker_clash (o_filter o) c ->
    o_astar o = false -> o_transp o = true -> collate cc topo ratio c o = Raise AttributeError.
  Proof.
    intros c o N [ND NG] NE NM O1 O2.
    assert (NC : c <> []) by (destruct c; [cbn in N; lia|discriminate]).
    destruct (prepare_total c NC ND NE) as [ti P].
    pose proof (prepare_index_ok c ti ND P) as IX. pose proof (prepare_text_ok c ti P) as TX.
    assert (WN : ti_wits ti <> []) by (rewrite (ix_wits _ _ IX); destruct c; [congruence|discriminate]).
    destruct (align_all_total c ti (o_filter o) IX TX NG topo TO) as [st A]; [|assumption|].
    { apply (no_clash_wits c ti _ IX NM). }
    unfold collate, collate_graph, aligner_collate. rewrite O1, O2, P. cbn [bind].
    assert (F : align_all topo (o_filter o) true ti = Raise AttributeError).
    { unfold align_all in *. assert (L : length (ti_wits ti) = length c).
      { rewrite (ix_wits _ _ IX). clear. generalize 0. induction c as [|w c IH]; intros p; [reflexivity|]. cbn [stamped length]. rewrite IH. reflexivity. }
      destruct (ti_wits ti) as [|iw rest]; [congruence|]. apply bind_ok in A as [st1 [A1 A2]]. rewrite A1. cbn [bind].
      destruct rest as [|iw2 rest]; [cbn in L; lia|]. cbn [foldM] in *. apply bind_ok in A2 as [st2 [A2 _]].
      rewrite next_step_true, A2. reflexivity. }
    rewrite F. reflexivity.
  Qed.

  Lemma transposition_single : forall w o, collate cc topo ratio [w] o = collate cc topo ratio [w] (set_transp o false).
  Proof.
    intros w o. unfold collate, collate_graph. cbn [set_transp o_astar o_filter o_near o_segmentation o_transp].
    assert (E : forall b, aligner_collate topo (o_filter o) b [w] = aligner_collate topo (o_filter o) false [w]).
    { intros b. unfold aligner_collate. destruct (prepare [w]) as [ti|] eqn:P; [|reflexivity]. cbn [bind].
      assert (exists iw, ti_wits ti = [iw]) as [iw E].
      { assert (ND : NoDup (map w_sigil [w])) by (repeat constructor; intros []). rewrite (ix_wits _ _ (prepare_index_ok [w] ti ND P)). eexists. reflexivity. }
      unfold align_all. rewrite E. reflexivity. }
    rewrite (E (o_transp o)). reflexivity.
  Qed.
End Options.
