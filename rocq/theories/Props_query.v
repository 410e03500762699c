(** C79, C80: looking up vertices and edges of the variant graph. *)
From Verif Require Import Py Lib TokenModel IndexModel AlignModel GraphModel TableModel CollateModel GraphSpec TableSpec CollateSpec ResultProof FactsProof IdentProof TopoProof Samples QueryModel QuerySpec QueryProof PhraseProof Props_collate.
From Coq Require Import QArith String.
Open Scope list_scope.
Open Scope nat_scope.
Notation length := List.length.

(** ** C79: vertexWith *)
Theorem C79_found : forall cc topo ratio c o g s, topo_ok topo -> good_sigla c -> o_segmentation o = false ->
  collate cc topo ratio c o = Ok (OGraph g) -> ~ end_label s -> occurs_in c s ->
  exists v vx, vertex_with g s = Ok v /\ dget Nat.eqb v (g_verts g) = Some vx /\ v_tokens vx <> [] /\
    forall sg ts, In (sg, ts) (v_tokens vx) ->
      exists w t0 t, In w c /\ w_sigil w = sg /\ In t0 (w_toks w) /\ came_from sg t0 t /\ ts = [t] /\ tk_str t = s.
Proof.
  intros cc topo ratio c o g s TO G HS H N O. destruct (collate_graph_inv cc topo ratio c o g H) as [r H1].
  apply (found_plain cc topo ratio TO c o g r s G HS H1 N). exact O.
Qed.
Print Assumptions C79_found.

Theorem C79_not_found : forall cc topo ratio c o g s, topo_ok topo -> good_sigla c -> o_segmentation o = false ->
  collate cc topo ratio c o = Ok (OGraph g) -> ~ end_label s -> ~ occurs_in c s ->
  vertex_with g s = Raise VertexNotFound.
Proof.
  intros cc topo ratio c o g s TO G HS H N O. destruct (collate_graph_inv cc topo ratio c o g H) as [r H1].
  apply (found_plain cc topo ratio TO c o g r s G HS H1 N). exact O.
Qed.
Print Assumptions C79_not_found.

(** Of several vertices with the same label the oldest one is found. *)
Theorem C79_oldest : forall g s v, vertex_with g s = Ok v ->
  exists older vx newer, g_verts g = older ++ (v, vx) :: newer /\ v_label vx = s /\ forall u ux, In (u, ux) older -> v_label ux <> s.
Proof.
  intros g s v H. unfold vertex_with in H. induction (g_verts g) as [|[u ux] l IH]; [discriminate H|]. cbn [find snd] in H.
  destruct (str_eqb (v_label ux) s) eqn:E.
  - injection H as <-. exists [], ux, l. split; [reflexivity|]. split; [apply str_eqb_ok; exact E|contradiction].
  - destruct (IH H) as [older [vx [newer [-> [L O]]]]]. exists ((u, ux) :: older), vx, newer. split; [reflexivity|]. split; [exact L|].
    intros u' ux' [Q|Q]; [injection Q as <- <-; intros F; rewrite F in E; assert (T : str_eqb s s = true) by (apply str_eqb_ok; reflexivity); congruence|apply (O u' ux' Q)].
Qed.
Print Assumptions C79_oldest.

(** "start" and "end" give the two ends, whatever the witnesses contain (any options). *)
Theorem C79_ends : forall cc topo ratio c o g, topo_ok topo -> good_sigla c ->
  collate cc topo ratio c o = Ok (OGraph g) -> vertex_with g (lit "start") = Ok v_start /\ vertex_with g (lit "end") = Ok v_end.
Proof.
  intros cc topo ratio c o g TO G H. destruct (collate_graph_inv cc topo ratio c o g H) as [r H1].
  destruct (found_ends cc topo ratio TO c o g r G H1) as [A [v [B ->]]]. auto.
Qed.
Print Assumptions C79_ends.

(** With segmentation: what is found has these tokens. *)
Theorem C79_segments : forall cc topo ratio c o g s v, topo_ok topo -> good_sigla c ->
  collate cc topo ratio c o = Ok (OGraph g) -> ~ end_label s -> vertex_with g s = Ok v ->
  exists vx ws, dget Nat.eqb v (g_verts g) = Some vx /\ printed cc ws s /\ forall sg ts, In (sg, ts) (v_tokens vx) -> map tk_str ts = ws.
Proof.
  intros cc topo ratio c o g s v TO G H N F. destruct (collate_graph_inv cc topo ratio c o g H) as [r H1].
  destruct (result_graph cc topo ratio TO c o g r G H1) as [W [GI _]].
  destruct (vertex_with_ok g s v (result_verts cc topo ratio TO c o g r G H1) F) as [vx [D L]].
  assert (N1 : v <> v_start).
  { intros ->. apply N. pose proof (gi_start _ _ GI) as Q. cbn [without_near g_verts] in Q. rewrite D in Q. injection Q as ->. left. symmetry. exact L. }
  assert (N2 : v <> v_end).
  { intros ->. apply N. pose proof (gi_end _ _ GI) as Q. cbn [without_near g_verts] in Q. rewrite D in Q. injection Q as ->. right. symmetry. exact L. }
  destruct (C08_segments_agree cc topo ratio c o g TO G H v vx D N1 N2) as [ws [P A]]. exists vx, ws. rewrite L in P. auto.
Qed.
Print Assumptions C79_segments.

(** A token "start" of a witness is not found: the label of the start vertex hides it. *)
Theorem C79_start_refuted : exists c g, good_sigla c /\ collate ascii_cc kahn no_similarity c (plain_options "graph") = Ok (OGraph g) /\
  occurs_in c (lit "start") /\ forall v vx, vertex_with g (lit "start") = Ok v -> dget Nat.eqb v (g_verts g) = Some vx -> v_tokens vx = [].
Proof.
  exists [words "A" ["start"; "here"]; words "B" ["start"]].
  destruct (collate ascii_cc kahn no_similarity [words "A" ["start"; "here"]; words "B" ["start"]] (plain_options "graph")) as [x|] eqn:E; [|exfalso; vm_compute in E; discriminate E].
  vm_compute in E. injection E as <-. eexists. split; [split; [repeat constructor; cbn; intuition discriminate|cbn; intuition discriminate]|]. split; [reflexivity|]. split.
  - exists (words "A" ["start"; "here"]), (word (lit "start")). split; [left; reflexivity|]. split; [left; reflexivity|reflexivity].
  - intros v vx Hv D. vm_compute in Hv. injection Hv as <-. vm_compute in D. injection D as <-. reflexivity.
Qed.
Print Assumptions C79_start_refuted.

(** With segmentation a token of a witness need not be found. *)
Theorem C79_segments_refuted : exists c g s, good_sigla c /\ collate ascii_cc kahn no_similarity c (seg_options "graph") = Ok (OGraph g) /\
  occurs_in c s /\ vertex_with g s = Raise VertexNotFound.
Proof.
  exists [words "A" ["a"; "b"]; words "B" ["a"; "b"]].
  destruct (collate ascii_cc kahn no_similarity [words "A" ["a"; "b"]; words "B" ["a"; "b"]] (seg_options "graph")) as [x|] eqn:E; [|exfalso; vm_compute in E; discriminate E].
  vm_compute in E. injection E as <-. eexists. exists (lit "b"). split; [split; [repeat constructor; cbn; intuition discriminate|cbn; intuition discriminate]|]. split; [reflexivity|]. split.
  - exists (words "A" ["a"; "b"]), (word (lit "b")). split; [left; reflexivity|]. split; [right; left; reflexivity|reflexivity].
  - reflexivity.
Qed.
Print Assumptions C79_segments_refuted.

(** A case for C79_found and C79_not_found. *)
Example C79_example : exists g v, good_sigla three_witnesses /\ collate ascii_cc kahn no_similarity three_witnesses (plain_options "graph") = Ok (OGraph g) /\
  occurs_in three_witnesses (lit "quick") /\ vertex_with g (lit "quick") = Ok v /\ v <> v_start /\ vertex_with g (lit "slow") = Raise VertexNotFound.
Proof.
  destruct (collate ascii_cc kahn no_similarity three_witnesses (plain_options "graph")) as [x|] eqn:E; [|exfalso; vm_compute in E; discriminate E].
  vm_compute in E. injection E as <-. eexists. eexists. split; [split; [repeat constructor; cbn; intuition discriminate|cbn; intuition discriminate]|]. split; [reflexivity|]. split.
  - exists (words "A" ["the"; "quick"; "brown"; "fox"; "jumps"]), (word (lit "quick")). split; [left; reflexivity|]. split; [right; left; reflexivity|reflexivity].
  - split; [reflexivity|]. split; [intro F; discriminate F|reflexivity].
Qed.

(** ** C80: edge_between holds exactly for the steps of the witnesses. *)
Theorem C80_edge_between : forall cc topo ratio c o g, topo_ok topo -> good_sigla c ->
  collate cc topo ratio c o = Ok (OGraph g) ->
  exists W, Forall2 carries c W /\ made_of_paths g W /\
    forall u v, edge_between g u v = true <-> exists p, In p W /\ In (u, v) (pairs (chain p)).
Proof.
  intros cc topo ratio c o g TO G H. destruct (C07_witness_paths cc topo ratio c o g TO G H) as [W [A B]]. exists W. split; [exact A|]. split; [exact B|].
  intros u v. rewrite edge_between_iff. apply (mp_edges _ _ B).
Qed.
Print Assumptions C80_edge_between.

(** Every vertex but start can be entered, every vertex but end can be left. *)
Theorem C80_no_dead_ends : forall cc topo ratio c o g, topo_ok topo -> good_sigla c ->
  collate cc topo ratio c o = Ok (OGraph g) -> forall v, In v (vertices g) ->
  (v <> v_start -> exists u, In u (vertices g) /\ edge_between g u v = true) /\ (v <> v_end -> exists w, In w (vertices g) /\ edge_between g v w = true) /\
  edge_between g v v_start = false /\ edge_between g v_end v = false.
Proof.
  intros cc topo ratio c o g TO G H v V. destruct (C07_witness_paths cc topo ratio c o g TO G H) as [W [A B]].
  assert (NE : exists p, In p W).
  { destruct (collate_graph_inv cc topo ratio c o g H) as [r H1]. pose proof (collate_nonempty cc topo ratio c o g r H1) as NC.
    pose proof (carries_nonempty c W NC A) as NW. clear - NW. destruct W as [|p l]; [contradiction|]. exists p. left. reflexivity. }
  assert (ON : exists p, In p W /\ In v (chain p)).
  { destruct NE as [p Hp]. destruct (proj1 (mp_verts _ _ B v) V) as [Q|[Q|Q]]; [| |exact Q]; exists p; (split; [exact Hp|]); rewrite Q; unfold chain; [left; reflexivity|].
    right. apply in_or_app. right. left. reflexivity. }
  destruct ON as [p [Hp Hv]]. apply In_nth_error in Hv as [i Hi].
  assert (E0 : nth_error (chain p) 0 = Some v_start) by reflexivity.
  assert (E1 : nth_error (chain p) (S (length (snd p))) = Some v_end).
  { unfold chain. cbn [nth_error]. rewrite nth_error_app2; rewrite map_length; [|apply Nat.le_refl]. rewrite Nat.sub_diag. reflexivity. }
  assert (LN : length (chain p) = S (S (length (snd p)))) by (unfold chain; cbn [length]; rewrite app_length, map_length; cbn [length]; lia).
  assert (IN : forall x, In x (chain p) -> In x (vertices g)) by (intros x Hx; apply (mp_verts _ _ B); right; right; exists p; auto).
  split; [|split; [|split]].
  - intros N. destruct i as [|i]; [rewrite E0 in Hi; injection Hi as Hi; congruence|].
    destruct (nth_error (chain p) i) as [u|] eqn:Eu.
    + exists u. split; [apply IN; apply (nth_error_In _ _ Eu)|]. apply edge_between_iff. apply (mp_edges _ _ B). exists p. split; [exact Hp|]. apply (pairs_nth _ i _ _ Eu Hi).
    + exfalso. apply nth_error_None in Eu. assert (S i < length (chain p)) by (apply nth_error_Some; rewrite Hi; intro F; discriminate F). lia.
  - intros N. destruct (nth_error (chain p) (S i)) as [w|] eqn:Ew.
    + exists w. split; [apply IN; apply (nth_error_In _ _ Ew)|]. apply edge_between_iff. apply (mp_edges _ _ B). exists p. split; [exact Hp|]. apply (pairs_nth _ i _ _ Hi Ew).
    + exfalso. apply nth_error_None in Ew. assert (i < length (chain p)) by (apply nth_error_Some; rewrite Hi; intro F; discriminate F).
      assert (i = S (length (snd p))) by lia. subst i. rewrite E1 in Hi. injection Hi as Hi. congruence.
  - apply Bool.not_true_iff_false. intros F. apply edge_between_iff in F. apply (mp_edges _ _ B) in F as [q [Hq F]]. apply pairs_nth_inv in F as [j [_ F]].
    pose proof (mp_simple _ _ B q Hq) as ND. unfold chain in ND, F. cbn [nth_error] in F. inversion ND as [|? ? K _]; subst. apply K. apply (nth_error_In _ _ F).
  - apply Bool.not_true_iff_false. intros F. apply edge_between_iff in F. apply (mp_edges _ _ B) in F as [q [Hq F]]. apply pairs_nth_inv in F as [j [F1 F2]].
    pose proof (mp_simple _ _ B q Hq) as ND.
    assert (Q1 : nth_error (chain q) (S (length (snd q))) = Some v_end).
    { unfold chain. cbn [nth_error]. rewrite nth_error_app2; rewrite map_length; [|apply Nat.le_refl]. rewrite Nat.sub_diag. reflexivity. }
    assert (LQ : length (chain q) = S (S (length (snd q)))) by (unfold chain; cbn [length]; rewrite app_length, map_length; cbn [length]; lia).
    assert (J : S j < length (chain q)) by (apply nth_error_Some; rewrite F2; intro X; discriminate X).
    assert (EJ : j = S (length (snd q))) by (apply (proj1 (NoDup_nth_error (chain q)) ND); [lia|congruence]). lia.
Qed.
Print Assumptions C80_no_dead_ends.

Example C80_example : exists g, collate ascii_cc kahn no_similarity three_witnesses (plain_options "graph") = Ok (OGraph g) /\
  edge_between g v_start 2 = true /\ edge_between g 2 4 = true /\ edge_between g 4 2 = false /\ edge_between g v_start v_end = false.
Proof.
  destruct (collate ascii_cc kahn no_similarity three_witnesses (plain_options "graph")) as [x|] eqn:E; [|exfalso; vm_compute in E; discriminate E].
  vm_compute in E. injection E as <-. eexists. split; [reflexivity|]. repeat split; reflexivity.
Qed.
