(** Marker strings, the properties filter, near matching, empty sigla (C19, C20, C21, C42, C45, C47). *)
From Verif Require Import Py TokenModel SuffixModel IndexModel GraphModel AlignModel TableModel NearModel ExportModel
  CollateModel Lib GraphSpec TableSpec CollateSpec Samples TopoProof ResultProof FilterProof NearProof NearTwoProof NearSpec NearBest.
From Coq Require Import Permutation QArith.
Open Scope list_scope.
Open Scope nat_scope.

Lemma no_marker_clash_alpha : forall filt c, (forall w t, In w c -> In t (w_toks w) -> exists ch s, t0_str t = ch :: s /\ ch <> 36%N) -> ~ marker_clash filt c.
Proof.
  intros filt c H [i [w [t [j [A [B [C _]]]]]]]. apply nth_error_In in A. destruct (H w t A B) as [ch [s [E N]]]. rewrite E in C. injection C as C _. congruence.
Qed.

(** ** C19: a token that looks like a marker makes collate fail, although everything else is
    in order.  [marker_clash] is the exact condition. *)
Theorem C19_marker_refuted : exists c, c <> [] /\ good_sigla c /\ no_empty_witness c /\ has_texts c /\
  collate ascii_cc kahn sample_ratio c (plain_options "table") = Raise VertexIsNull.
Proof.
  exists marker_word. split; [discriminate|]. split; [split; [repeat constructor; cbn; intuition discriminate|cbn; intuition discriminate]|].
  split; [repeat constructor; discriminate|]. split.
  - intros w t Hw Ht. cbn [marker_word In] in Hw. repeat (destruct Hw as [<-|Hw]; [cbn [words w_toks map In] in Ht|]); try contradiction;
      repeat (destruct Ht as [<-|Ht]; [eexists; reflexivity|]); contradiction.
  - vm_compute. reflexivity.
Qed.
Print Assumptions C19_marker_refuted.

Theorem C19_markers_partial : forall cc topo ratio c o, topo_ok topo -> c <> [] -> good_sigla c -> no_empty_witness c ->
  In (o_output o) outputs -> (In (o_output o) outputs_with_text -> has_texts c) -> o_astar o = false -> o_transp o = false ->
  (exists x, collate cc topo ratio c o = Ok x) <-> ~ marker_clash (o_filter o) c /\ (o_near o = true -> o_segmentation o = false).
Proof. intros cc topo ratio c o TO. apply succeeds_iff. assumption. Qed.
Print Assumptions C19_markers_partial.

(** Both sides occur: a harmless marker-like token, and a clash. *)
Example C19_harmless : ~ marker_clash None [words "A" ["$0"; "$1"; "$7"]; words "B" ["$1"; "$1"; "$2"]] /\
  exists x, collate ascii_cc kahn sample_ratio [words "A" ["$0"; "$1"; "$7"]; words "B" ["$1"; "$1"; "$2"]] (plain_options "table") = Ok x.
Proof.
  split; [|eexists; vm_compute; reflexivity].
  intros [i [w [t [j [A [B [C [L [D|[D _]]]]]]]]]]; [|congruence]. cbn [length] in L. assert (j = 0) by lia. subst j.
  destruct i as [|[|i]]; [lia| |destruct i; discriminate]. injection A as <-. cbn [words w_toks map In] in B.
  repeat (destruct B as [<-|B]; [vm_compute in C; discriminate|]). contradiction.
Qed.
Example C19_clash : marker_clash None marker_word.
Proof. exists 1. eexists. eexists. exists 0. split; [reflexivity|]. split; [left; reflexivity|]. split; [reflexivity|]. cbn. lia. Qed.

(** ** C20: the filter looks at the first token of a repeated block, not at the token itself,
    so tokens it rejects are aligned. *)
Theorem C20_filter_refuted : exists c f g r v vx ta tb, good_sigla c /\ no_internal_keys c /\ f = same_tag /\
  collate_graph ascii_cc kahn sample_ratio c (filter_options "table") = Ok (g, r) /\
  dget Nat.eqb v (g_verts g) = Some vx /\ In (lit "A", [ta]) (v_tokens vx) /\ In (lit "B", [tb]) (v_tokens vx) /\
  f (tk_data tb) (tk_data ta) = false /\ f (tk_data ta) (tk_data tb) = false.
Proof.
  exists shifted_tags, same_tag. destruct (collate_graph ascii_cc kahn sample_ratio shifted_tags (filter_options "table")) as [[g r]|] eqn:E; [|exfalso; vm_compute in E; discriminate].
  vm_compute in E. injection E as <- <-. eexists. eexists. exists 3. eexists. eexists. eexists.
  split; [split; [repeat constructor; cbn; intuition discriminate|cbn; intuition discriminate]|]. split.
  { intros w t Hw Ht. cbn [shifted_tags In] in Hw. repeat (destruct Hw as [<-|Hw]; [cbn [w_toks In] in Ht|]); try contradiction;
      repeat (destruct Ht as [<-|Ht]; [split; vm_compute; intuition discriminate|]); contradiction. }
  split; [reflexivity|]. split; [reflexivity|]. split; [reflexivity|]. cbn [v_tokens].
  split; [left; reflexivity|]. split; [right; left; reflexivity|]. split; vm_compute; reflexivity.
Qed.
Print Assumptions C20_filter_refuted.

(** What the filter does guarantee: a token joins a vertex only together with an earlier
    witness whose text agrees from some place on, and for which the filter accepted the
    token with the token standing at that place. *)
Theorem C20_filter_partial : forall cc topo ratio c o f g r, topo_ok topo -> good_sigla c -> no_internal_keys c ->
  o_filter o = Some f -> o_segmentation o = false -> collate_graph cc topo ratio c o = Ok (g, r) ->
  exists W, Forall2 carries c W /\ made_of_paths g W /\
    forall n p w y v ts, nth_error W n = Some p -> nth_error c n = Some w -> nth_error (snd p) y = Some (v, ts) ->
      (forall p', In p' (firstn n W) -> ~ In v (map fst (snd p'))) \/
      exists n1 p1 w1 x ts1 k, n1 < n /\ nth_error W n1 = Some p1 /\ nth_error c n1 = Some w1 /\
        nth_error (snd p1) x = Some (v, ts1) /\ accepted_at f k w1 x w y.
Proof. intros. eapply filter_spec; eassumption. Qed.
Print Assumptions C20_filter_partial.

(** A filter that accepts nothing keeps the witnesses apart. *)
Corollary C20_reject_all_partial : forall cc topo ratio c o g r, topo_ok topo -> good_sigla c -> no_internal_keys c ->
  o_filter o = Some (fun _ _ => false) -> o_segmentation o = false -> collate_graph cc topo ratio c o = Ok (g, r) ->
  exists W, Forall2 carries c W /\ made_of_paths g W /\
    forall n1 n2 p1 p2 v, n1 < n2 -> nth_error W n1 = Some p1 -> nth_error W n2 = Some p2 ->
      In v (map fst (snd p1)) -> In v (map fst (snd p2)) -> False.
Proof.
  intros cc topo ratio c o g r TO G NK Hf Hs H. destruct (filter_spec cc topo ratio c o _ g r TO G NK Hf Hs H) as [W [W1 [W2 W3]]].
  exists W. split; [assumption|]. split; [assumption|]. intros n1 n2 p1 p2 v L E1 E2 I1 I2.
  apply in_map_iff in I2 as [[v' ts] [Q I2]]. cbn [fst] in Q. subst v'. apply In_nth_error in I2 as [y Hy].
  assert (exists w, nth_error c n2 = Some w) as [w Hw].
  { clear - W1 E2. revert n2 E2. induction W1; intros [|n] E; try discriminate; cbn in *; eauto. }
  destruct (W3 n2 p2 w y v ts E2 Hw Hy) as [Q|Q].
  - apply (Q p1); [|assumption]. apply nth_error_In with n1. rewrite nth_error_firstn. apply Nat.ltb_lt in L. rewrite L. assumption.
  - destruct Q as [m1 [q1 [w1 [x [ts1 [k [_ [_ [_ [_ [_ [_ [[b [a [_ [_ Q]]]] _]]]]]]]]]]]]]. discriminate.
Qed.
Print Assumptions C20_reject_all_partial.

(** ** C21: near matching loses tokens and can exchange neighbours. *)
Theorem C21_token_lost_refuted : exists c t, good_sigla c /\ collate ascii_cc kahn sample_ratio c (near_options "table") = Ok (OTable t) /\
  exists w ro, nth_error c 1 = Some w /\ nth_error (t_rows t) 1 = Some ro /\
    map t0_str (w_toks w) = [lit "cat"; lit "cats"; lit "z"] /\ length (row_tokens ro) = 2.
Proof.
  exists near_loss. destruct (collate ascii_cc kahn sample_ratio near_loss (near_options "table")) as [x|] eqn:E; [|exfalso; vm_compute in E; discriminate].
  vm_compute in E. injection E as <-. eexists. split; [split; [repeat constructor; cbn; intuition discriminate|cbn; intuition discriminate]|].
  split; [reflexivity|]. eexists. eexists. split; [reflexivity|]. split; [reflexivity|]. split; reflexivity.
Qed.
Print Assumptions C21_token_lost_refuted.
Theorem C21_order_refuted : exists c t, good_sigla c /\ collate ascii_cc kahn sample_ratio c (near_options "table") = Ok (OTable t) /\
  exists w ro, nth_error c 1 = Some w /\ nth_error (t_rows t) 1 = Some ro /\
    map t0_str (w_toks w) = [lit "cat"; lit "pot"; lit "z"] /\ map tk_str (row_tokens ro) = [lit "pot"; lit "cat"; lit "z"].
Proof.
  exists near_swap. destruct (collate ascii_cc kahn sample_ratio near_swap (near_options "table")) as [x|] eqn:E; [|exfalso; vm_compute in E; discriminate].
  vm_compute in E. injection E as <-. eexists. split; [split; [repeat constructor; cbn; intuition discriminate|cbn; intuition discriminate]|].
  split; [reflexivity|]. eexists. eexists. split; [reflexivity|]. split; [reflexivity|]. split; reflexivity.
Qed.
Print Assumptions C21_order_refuted.

(** With one or two witnesses the rows are complete and in order, for every similarity. *)
Theorem C21_two_witnesses_partial : forall cc topo ratio c o t, topo_ok topo -> length c <= 2 -> good_sigla c -> o_near o = true ->
  collate cc topo ratio c o = Ok (OTable t) ->
  Forall2 (fun w ro => r_header ro = w_sigil w /\ Forall2 (came_from (w_sigil w)) (w_toks w) (row_tokens ro)) c (t_rows t).
Proof. intros cc topo ratio c o t TO. apply near_two_witnesses. assumption. Qed.
Print Assumptions C21_two_witnesses_partial.
Example C21_example : exists t, collate ascii_cc kahn sample_ratio [words "A" ["the"; "black"; "cats"; "sat"]; words "B" ["the"; "cat"; "sat"]] (near_options "table") = Ok (OTable t) /\
  readings t = [[[lit "the"]; [lit "black"]; [lit "cats"]; [lit "sat"]]; [[lit "the"]; []; [lit "cat"]; [lit "sat"]]].
Proof. eexists. split; vm_compute; reflexivity. Qed.

(** ** C45: near matching never fails and keeps the number of columns. *)
Theorem C45_near_succeeds : forall cc topo ratio c o, topo_ok topo -> c <> [] -> good_sigla c -> no_empty_witness c -> ~ marker_clash (o_filter o) c ->
  In (o_output o) outputs -> (In (o_output o) outputs_with_text -> has_texts c) ->
  o_astar o = false -> o_transp o = false -> o_near o = true -> o_segmentation o = false ->
  exists x, collate cc topo ratio c o = Ok x.
Proof. intros cc topo ratio c o TO. intros. apply succeeds_all; auto. Qed.
Print Assumptions C45_near_succeeds.
Theorem C45_near_columns : forall cc topo ratio c o t0, topo_ok topo -> good_sigla c -> o_segmentation o = false -> o_output o = lit "table" ->
  collate cc topo ratio c (set_near o false) = Ok (OTable t0) ->
  exists t, collate cc topo ratio c (set_near o true) = Ok (OTable t) /\ length (t_columns t) = length (t_columns t0).
Proof. intros cc topo ratio c o t0 TO. apply near_columns. assumption. Qed.
Print Assumptions C45_near_columns.
(** Near matching adds near edges to the graph and changes nothing else in it. *)
Theorem C45_near_graph : forall cc topo ratio c o g0 r0, topo_ok topo -> good_sigla c -> o_segmentation o = false ->
  collate_graph cc topo ratio c (set_near o false) = Ok (g0, r0) ->
  exists g r, collate_graph cc topo ratio c (set_near o true) = Ok (g, r) /\
    g_verts g = g_verts g0 /\ g_edges g = g_edges g0 /\ g_near g0 = [] /\
    (forall v, In v (vertices g0) -> exists k, dget Nat.eqb v (by_vertex r) = Some k) /\
    (forall v k l, dget Nat.eqb v (by_vertex r) = Some k -> dget Nat.eqb k (by_rank r) = Some l -> In v l) /\
    (forall k1 k2 l1 l2 v, dget Nat.eqb k1 (by_rank r) = Some l1 -> dget Nat.eqb k2 (by_rank r) = Some l2 -> In v l1 -> In v l2 -> k1 = k2).
Proof.
  intros cc topo ratio c o g0 r0 TO G Hs H. destruct (near_spec cc topo ratio TO c o g0 r0 G Hs H) as [g [r [W [rk [m [l [N1 [N2 [N3 [N4 [N5 [N6 [N7 N8]]]]]]]]]]]]].
  exists g, r. split; [assumption|]. split; [subst g0; reflexivity|]. split; [subst g0; reflexivity|]. split; [apply (gi_near _ _ N4)|].
  split; [apply (pd_verts _ _ _ _ N8)|]. split.
  - intros v k ll D1 D2. destruct (pd_at _ _ _ _ N8 v k D1) as [_ [l' [Q1 Q2]]]. congruence.
  - intros k1 k2 l1 l2 v D1 D2 I1 I2. pose proof (proj2 (pd_lists _ _ _ _ N8 k1 l1 D1) v I1). pose proof (proj2 (pd_lists _ _ _ _ N8 k2 l2 D2) v I2). congruence.
Qed.
Print Assumptions C45_near_graph.
Example C45_example : exists x, collate ascii_cc kahn sample_ratio near_loss (near_options "table") = Ok x.
Proof.
  apply C45_near_succeeds; try reflexivity; try discriminate.
  - apply kahn_topo_ok.
  - split; [repeat constructor; cbn; intuition discriminate|cbn; intuition discriminate].
  - repeat constructor; discriminate.
  - apply no_marker_clash_alpha. intros w t Hw Ht. cbn [near_loss In] in Hw.
    repeat (destruct Hw as [<-|Hw]; [cbn [words w_toks map In] in Ht|]); try contradiction;
      repeat (destruct Ht as [<-|Ht]; [eexists; eexists; split; [reflexivity|vm_compute; discriminate]|]); contradiction.
  - unfold outputs. apply in_or_app. left. cbn. auto 10.
  - intros C. cbn in C. intuition discriminate.
Qed.

(** ** C47: near matching moves a token next to the most similar one. *)
(** All edges are considered, last vertex first; every move goes to the first of the most
    similar candidates on the ranks the token can have. *)
Theorem C47_most_similar : forall cc topo ratio c o g0 r0 g r, o_segmentation o = false ->
  collate_graph cc topo ratio c (set_near o false) = Ok (g0, r0) -> collate_graph cc topo ratio c (set_near o true) = Ok (g, r) ->
  exists order rl, topo g0 = Ok order /\ near_run topo ratio (edges_into g0 (rev order)) (g0, r0) (g, rl) /\ ranking_of topo g = Ok r.
Proof. exact near_collate_run. Qed.
Print Assumptions C47_most_similar.
(** When one token is moved: it gets the rank of the most similar candidate, the others stay. *)
Theorem C47_one_move : forall cc topo ratio c o g0 r0 g r w src q, topo_ok topo -> good_sigla c -> o_segmentation o = false ->
  collate_graph cc topo ratio c (set_near o false) = Ok (g0, r0) -> collate_graph cc topo ratio c (set_near o true) = Ok (g, r) ->
  g_near g = [((w, src), q)] ->
  exists v ks kv kw l, edge g0 src v /\ has_room g0 r0 src v ks kv /\ candidates r0 src ks kv l /\ most_similar ratio g0 src l w q /\
    rank_at r0 w kw /\ rank_at r src kw /\ forall x k, x <> src -> (rank_at r x k <-> rank_at r0 x k).
Proof. intros cc topo ratio c o g0 r0 g r w src q TO. apply near_collate_one. assumption. Qed.
Print Assumptions C47_one_move.
(** When no token is moved, none had room. *)
Theorem C47_no_move : forall cc topo ratio c o g0 r0 g r, topo_ok topo -> good_sigla c -> o_segmentation o = false ->
  collate_graph cc topo ratio c (set_near o false) = Ok (g0, r0) -> collate_graph cc topo ratio c (set_near o true) = Ok (g, r) ->
  g_near g = [] -> (forall src v ks kv, edge g0 src v -> ~ has_room g0 r0 src v ks kv) /\ g = g0 /\ r = r0.
Proof. intros cc topo ratio c o g0 r0 g r TO. apply near_collate_none. assumption. Qed.
Print Assumptions C47_no_move.
(** The sample of C21: "cat" moves from the column of "black" to that of "cats". *)
Example C47_example : exists g0 r0 g r,
  let c := [words "A" ["the"; "black"; "cats"; "sat"]; words "B" ["the"; "cat"; "sat"]] in
  collate_graph ascii_cc kahn sample_ratio c (set_near (near_options "table") false) = Ok (g0, r0) /\
  collate_graph ascii_cc kahn sample_ratio c (set_near (near_options "table") true) = Ok (g, r) /\
  g_near g = [((4, 6), (6 # 7)%Q)] /\ map (label_of g) [3; 4; 6] = [lit "black"; lit "cats"; lit "cat"] /\
  rank_at r0 6 2 /\ rank_at r0 4 3 /\ rank_at r 6 3.
Proof.
  eexists. eexists. eexists. eexists. cbn zeta. split; [vm_compute; reflexivity|]. split; [vm_compute; reflexivity|].
  unfold rank_at. vm_compute. auto 10.
Qed.

(** ** C42: the tokens of a witness with an empty siglum disappear. *)
Theorem C42_empty_siglum_refuted : exists c t, NoDup (map w_sigil c) /\ collate ascii_cc kahn sample_ratio c (plain_options "table") = Ok (OTable t) /\
  map (fun w => map t0_str (w_toks w)) c = [[lit "a"]; [lit "x"]] /\ readings t = [[[lit "a"]]; [[]]].
Proof.
  exists empty_siglum. destruct (collate ascii_cc kahn sample_ratio empty_siglum (plain_options "table")) as [x|] eqn:E; [|exfalso; vm_compute in E; discriminate].
  vm_compute in E. injection E as <-. eexists. split; [repeat constructor; cbn; intuition discriminate|]. split; [reflexivity|]. split; reflexivity.
Qed.
Print Assumptions C42_empty_siglum_refuted.
