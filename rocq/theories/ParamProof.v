(** The pipeline looks at the token data of the user only through the token strings and the
    properties filter: exchanging the data exchanges the data in the result and changes nothing else. *)
From Verif Require Import Py Lib TokenModel SuffixModel IndexModel GraphModel AlignModel TableModel NearModel ExportModel
  CollateModel GraphSpec ParamSpec IndexProof.
From Coq Require Import QArith.
Open Scope list_scope.
Open Scope nat_scope.

Lemma foldM_nat : forall {A S S'} (f : S -> A -> res S) (f' : S' -> A -> res S') (h : S -> S') l s,
  (forall s x, f' (h s) x = (y <- f s x ;; Ok (h y))) -> foldM f' l (h s) = (y <- foldM f l s ;; Ok (h y)).
Proof.
  intros A S S' f f' h l. induction l as [|x l IH]; intros s H; cbn [foldM]; [reflexivity|].
  rewrite H. destruct (f s x) as [y|e]; cbn [bind]; [apply IH; assumption|reflexivity].
Qed.
Lemma foldM_nat_map : forall {A A' S S'} (f : S -> A -> res S) (f' : S' -> A' -> res S') (h : S -> S') (k : A -> A') l s,
  (forall s x, f' (h s) (k x) = (y <- f s x ;; Ok (h y))) -> foldM f' (map k l) (h s) = (y <- foldM f l s ;; Ok (h y)).
Proof.
  intros A A' S S' f f' h k l. induction l as [|x l IH]; intros s H; cbn [foldM map]; [reflexivity|].
  rewrite H. destruct (f s x) as [y|e]; cbn [bind]; [apply IH; assumption|reflexivity].
Qed.
Lemma foldM_same : forall {A S} (f f' : S -> A -> res S) l s, (forall s x, In x l -> f' s x = f s x) -> foldM f' l s = foldM f l s.
Proof.
  intros A S f f' l. induction l as [|x l IH]; intros s H; cbn [foldM]; [reflexivity|]. rewrite H by (left; reflexivity).
  destruct (f s x); cbn [bind]; [apply IH; intros; apply H; right; assumption|reflexivity].
Qed.

(** ** Dictionaries with mapped values *)
Definition dv {K V W} (f : V -> W) (d : list (K * V)) : list (K * W) := map (fun e => (fst e, f (snd e))) d.
Section DV.
  Context {K V W : Type} (eqb : K -> K -> bool) (f : V -> W).
  Lemma dget_dv : forall k d, dget eqb k (dv f d) = option_map f (dget eqb k d).
  Proof. intros k. induction d as [|[k' v] d IH]; [reflexivity|]. cbn [dv map dget fst snd]. destruct (eqb k k'); [reflexivity|exact IH]. Qed.
  Lemma dset_dv : forall k v d, dset eqb k (f v) (dv f d) = dv f (dset eqb k v d).
  Proof.
    intros k v. induction d as [|[k' w] d IH]; [reflexivity|]. cbn [dv map dset fst snd]. destruct (eqb k k'); [reflexivity|].
    cbn [map fst snd]. f_equal. exact IH.
  Qed.
  Lemma ddel_dv : forall k d, ddel eqb k (dv f d) = dv f (ddel eqb k d).
  Proof.
    intros k. induction d as [|[k' w] d IH]; [reflexivity|]. cbn [dv map ddel fst snd]. destruct (eqb k k'); [reflexivity|].
    cbn [map fst snd]. f_equal. exact IH.
  Qed.
  Lemma dmem_dv : forall k d, dmem eqb k (dv f d) = dmem eqb k d.
  Proof. intros. unfold dmem. rewrite dget_dv. destruct (dget eqb k d); reflexivity. Qed.
  Lemma dgetE_dv : forall k d, dgetE eqb k (dv f d) = (v <- dgetE eqb k d ;; Ok (f v)).
  Proof. intros. unfold dgetE. rewrite dget_dv. destruct (dget eqb k d); reflexivity. Qed.
  Lemma dv_app : forall d e : list (K * V), dv f (d ++ e) = dv f d ++ dv f e.
  Proof. intros. unfold dv. apply map_app. Qed.
  Lemma dv_keys : forall d : list (K * V), map fst (dv f d) = map fst d.
  Proof. intros. unfold dv. rewrite map_map. apply map_ext. intros [k v]. reflexivity. Qed.
  Lemma dv_length : forall d : list (K * V), length (dv f d) = length d.
  Proof. intros. unfold dv. apply map_length. Qed.
End DV.

Section Map.
  Variable mt : token -> token.
  Hypothesis Mp : forall t, tk_pos (mt t) = tk_pos t.
  Hypothesis Ms : forall t, tk_str (mt t) = tk_str t.

  (** ** Graphs *)
  Definition vmap (x : vertex) : vertex := {| v_label := v_label x; v_tokens := dv (map mt) (v_tokens x) |}.
  Definition gmap (g : graph) : graph := {| g_verts := dv vmap (g_verts g); g_edges := g_edges g; g_near := g_near g; g_next := g_next g |}.
  Definition grmap (p : graph * ranking) : graph * ranking := (gmap (fst p), snd p).

  Lemma vertices_gmap : forall g, vertices (gmap g) = vertices g.
  Proof. intros. unfold vertices. cbn [gmap g_verts]. apply dv_keys. Qed.
  Lemma get_gmap : forall g v, get_vertex (gmap g) v = (x <- get_vertex g v ;; Ok (vmap x)).
  Proof. intros. unfold get_vertex. cbn [gmap g_verts]. apply dgetE_dv. Qed.
  Lemma new_vmap : forall t sg, new_vertex (mt t) sg = vmap (new_vertex t sg).
  Proof. intros. unfold new_vertex, vmap. cbn [v_label v_tokens]. rewrite Ms. destruct sg; reflexivity. Qed.
  Lemma add_token_vmap : forall x sg t, vertex_add_token (vmap x) sg (mt t) = vmap (vertex_add_token x sg t).
  Proof.
    intros. unfold vertex_add_token, vmap. cbn [v_label v_tokens]. rewrite dget_dv. f_equal.
    destruct (dget str_eqb sg (v_tokens x)) as [l|]; cbn [option_map].
    - rewrite <- dset_dv, map_app. reflexivity.
    - rewrite <- dset_dv. reflexivity.
  Qed.
  Lemma update_gmap : forall g v x, update_vertex (gmap g) v (vmap x) = gmap (update_vertex g v x).
  Proof. intros. unfold update_vertex, gmap. cbn [g_verts g_edges g_near g_next]. rewrite dset_dv. reflexivity. Qed.
  Lemma connect_gmap : forall g u v l, connect (gmap g) u v l = gmap (connect g u v l).
  Proof. reflexivity. Qed.
  Lemma add_vertex_gmap : forall g t sg, add_vertex (gmap g) (mt t) sg = (gmap (fst (add_vertex g t sg)), snd (add_vertex g t sg)).
  Proof. intros. unfold add_vertex, gmap. cbn [g_verts g_edges g_near g_next fst snd]. rewrite dv_app, new_vmap. reflexivity. Qed.
  Lemma graph_add_gmap : forall g v sg t, graph_add_token (gmap g) v sg (mt t) = (y <- graph_add_token g v sg t ;; Ok (gmap y)).
  Proof.
    intros. unfold graph_add_token. rewrite get_gmap. destruct (get_vertex g v) as [x|e]; cbn [bind]; [|reflexivity].
    rewrite add_token_vmap, update_gmap. reflexivity.
  Qed.

  Lemma merge_tokens_gmap : forall ts g sg al last t2v,
    merge_tokens (gmap g) sg (map mt ts) al last t2v = ('(g', l, d) <- merge_tokens g sg ts al last t2v ;; Ok (gmap g', l, d)).
  Proof.
    induction ts as [|t ts IH]; intros g sg al last t2v; cbn [map merge_tokens]; [reflexivity|]. rewrite Mp.
    destruct (dget Nat.eqb (tk_pos t) al) as [v|].
    - rewrite graph_add_gmap. destruct (graph_add_token g v sg t) as [g1|e]; cbn [bind]; [|reflexivity]. rewrite connect_gmap. apply IH.
    - rewrite add_vertex_gmap. destruct (add_vertex g t sg) as [g1 v]. cbn [fst snd]. rewrite connect_gmap. apply IH.
  Qed.
  Lemma merge_gmap : forall g sg ts al, merge (gmap g) sg (map mt ts) al = ('(g', d) <- merge g sg ts al ;; Ok (gmap g', d)).
  Proof.
    intros. unfold merge. rewrite merge_tokens_gmap. destruct (merge_tokens g sg ts al v_start []) as [[[g' l] d]|e]; cbn [bind]; reflexivity.
  Qed.
  Lemma empty_gmap : gmap empty_graph = empty_graph.
  Proof. reflexivity. Qed.

  Lemma remove_edge_gmap : forall g u v, remove_edge (gmap g) u v = (y <- remove_edge g u v ;; Ok (gmap y)).
  Proof. intros. unfold remove_edge. cbn [gmap g_edges]. destruct (dmem edge_eqb (u, v) (g_edges g)); reflexivity. Qed.
  Lemma remove_node_gmap : forall g v, remove_node (gmap g) v = (y <- remove_node g v ;; Ok (gmap y)).
  Proof.
    intros. unfold remove_node. cbn [gmap g_verts g_edges g_near g_next]. rewrite dmem_dv. destruct (dmem Nat.eqb v (g_verts g)); [|reflexivity].
    cbn [bind]. unfold gmap. cbn [g_verts g_edges g_near g_next]. rewrite ddel_dv. reflexivity.
  Qed.
  Lemma aget_map : forall {A B} (f : A -> B) l i, aget (map f l) i = (x <- aget l i ;; Ok (f x)).
  Proof. intros. unfold aget. rewrite nth_error_map. destruct (nth_error l i); reflexivity. Qed.
  Lemma join_vertices_gmap : forall cc g cand v, join_vertices cc (gmap g) cand v = (y <- join_vertices cc g cand v ;; Ok (gmap y)).
  Proof.
    intros. unfold join_vertices. rewrite !get_gmap. destruct (get_vertex g v) as [x|e]; cbn [bind]; [|reflexivity].
    destruct (get_vertex g cand) as [y|e]; cbn [bind]; [|reflexivity].
    match goal with |- bind (foldM ?f' ?l' ?s') _ = bind (bind (foldM ?f ?l ?s) _) _ =>
      assert (H : foldM f' l' s' = (z <- foldM f l s ;; Ok (vmap z))) end.
    { change (v_tokens (vmap y)) with (map (fun e => (fst e, map mt (snd e))) (v_tokens y)).
      change {| v_label := join_labels cc (v_label (vmap x)) (v_label (vmap y)); v_tokens := v_tokens (vmap x) |}
        with (vmap {| v_label := join_labels cc (v_label x) (v_label y); v_tokens := v_tokens x |}).
      apply foldM_nat_map.
      intros z [sg ts]. cbn [fst snd]. rewrite aget_map. destruct (aget ts 0) as [t|e]; cbn [bind]; [|reflexivity]. rewrite add_token_vmap. reflexivity. }
    rewrite H. clear H. destruct (foldM _ _ _) as [z|e]; cbn [bind]; [|reflexivity]. rewrite update_gmap. reflexivity.
  Qed.
  Lemma absorb_gmap : forall cc g cand v, absorb cc (gmap g) cand v = (y <- absorb cc g cand v ;; Ok (gmap y)).
  Proof.
    intros. unfold absorb. rewrite join_vertices_gmap. destruct (join_vertices cc g cand v) as [g1|e]; cbn [bind]; [|reflexivity].
    change (out_edges (gmap g1) cand) with (out_edges g1 cand).
    rewrite (foldM_nat (fun g e => g' <- remove_edge g cand (snd (fst e)) ;; Ok (connect g' v (snd (fst e)) (snd e))) _ gmap).
    2:{ intros s e. rewrite remove_edge_gmap. destruct (remove_edge s cand (snd (fst e))); reflexivity. }
    destruct (foldM _ _ _) as [g2|e]; cbn [bind]; [|reflexivity]. rewrite remove_edge_gmap.
    destruct (remove_edge g2 v cand) as [g3|e]; cbn [bind]; [|reflexivity]. apply remove_node_gmap.
  Qed.
  Lemma join_loop_gmap : forall cc fuel g q p, join_loop cc fuel (gmap g) q p = (y <- join_loop cc fuel g q p ;; Ok (gmap y)).
  Proof.
    intros cc. induction fuel as [|f IH]; intros g q p; destruct q as [|v q]; try reflexivity. cbn [join_loop].
    replace (dmem Nat.eqb v (g_verts (gmap g))) with (dmem Nat.eqb v (g_verts g)) by (symmetry; apply dmem_dv).
    destruct (negb (dmem Nat.eqb v (g_verts g))); [reflexivity|]. change (out_edges (gmap g) v) with (out_edges g v).
    destruct (out_edges g v) as [|[[u cand] l] [|e2 oe]]; try apply IH. change (in_edges (gmap g) cand) with (in_edges g cand).
    destruct (negb (cand =? v_end) && (length (in_edges g cand) =? 1)); [|apply IH].
    rewrite absorb_gmap. destruct (absorb cc g cand v) as [g'|e]; cbn [bind]; [apply IH|reflexivity].
  Qed.
  Lemma join_gmap : forall cc g, join cc (gmap g) = (y <- join cc g ;; Ok (gmap y)).
  Proof.
    intros. unfold join. replace (join_fuel (gmap g)) with (join_fuel g).
    - apply join_loop_gmap.
    - unfold join_fuel. cbn [gmap g_verts g_edges]. rewrite dv_length. reflexivity.
  Qed.

  (** ** Ranking and near matching *)
  Section Topo.
    Variable topo : graph -> res (list vid).
    Hypothesis TS : structural topo.

    Lemma topo_gmap : forall g, topo (gmap g) = topo g.
    Proof. intros. apply TS; [apply vertices_gmap|reflexivity]. Qed.
    Lemma ranking_gmap : forall g, ranking_of topo (gmap g) = ranking_of topo g.
    Proof. intros. unfold ranking_of. rewrite topo_gmap. reflexivity. Qed.

    Variable ratio : str -> str -> Q.
    Lemma best_gmap : forall g src cands, best_candidate ratio (gmap g) src cands = best_candidate ratio g src cands.
    Proof.
      intros. unfold best_candidate. rewrite get_gmap. destruct (get_vertex g src) as [x|e]; cbn [bind]; [|reflexivity].
      f_equal. apply foldM_same. intros s c _. rewrite get_gmap. destruct (get_vertex g c) as [y|e]; reflexivity.
    Qed.
    Lemma near_edge_gmap : forall st e, near_edge_step topo ratio (grmap st) e = (y <- near_edge_step topo ratio st e ;; Ok (grmap y)).
    Proof.
      intros [g r] [[src v] l]. unfold near_edge_step, grmap. cbn [fst snd].
      destruct (dgetE Nat.eqb v (by_vertex r)) as [rv|e]; cbn [bind]; [|reflexivity].
      destruct (dgetE Nat.eqb src (by_vertex r)) as [rs|e]; cbn [bind]; [|reflexivity].
      destruct (Z.ltb 1 (Z.of_nat rv - Z.of_nat rs)); [|reflexivity].
      change (out_edges (gmap g) src) with (out_edges g src).
      destruct (mapM _ (out_edges g src)) as [ds|e]; cbn [bind]; [|reflexivity]. destruct (existsb (Z.eqb 1) ds); [reflexivity|].
      destruct (mapM _ (seq rs (rv - rs))) as [ls|e]; cbn [bind]; [|reflexivity]. rewrite best_gmap.
      destruct (best_candidate ratio g src _) as [[w q]|e]; cbn [bind]; [|reflexivity].
      change (connect_near (gmap g) w src q) with (gmap (connect_near g w src q)). rewrite ranking_gmap.
      destruct (ranking_of topo (connect_near g w src q)); reflexivity.
    Qed.
    Lemma near_gmap : forall g r, perform_near_match topo ratio (gmap g) r = (y <- perform_near_match topo ratio g r ;; Ok (grmap y)).
    Proof.
      intros. unfold perform_near_match. rewrite topo_gmap. destruct (topo g) as [order|e]; cbn [bind]; [|reflexivity].
      change (gmap g, r) with (grmap (g, r)).
      rewrite (foldM_nat (fun st v => foldM (near_edge_step topo ratio) (in_edges (fst st) v) st) _ grmap).
      2:{ intros s v. change (in_edges (fst (grmap s)) v) with (in_edges (fst s) v). apply foldM_nat. apply near_edge_gmap. }
      destruct (foldM _ _ _) as [[g' r']|e]; cbn [bind grmap fst snd]; [|reflexivity]. rewrite ranking_gmap.
      destruct (ranking_of topo g'); reflexivity.
    Qed.

    (** ** The aligner *)
    Definition iwmap (w : iwitness) : iwitness := {| iw_sigil := iw_sigil w; iw_toks := map mt (iw_toks w) |}.
    Definition timap (ti : tindex) : tindex :=
      {| ti_wits := map iwmap (ti_wits ti); ti_ranges := ti_ranges ti; ti_array := map mt (ti_array ti); ti_sa := ti_sa ti;
         ti_lcp := ti_lcp ti; ti_blocks := ti_blocks ti; ti_instances := ti_instances ti |}.
    Definition cmap (m : cube) : cube := dv (fun e => (fst e, mt (snd e))) m.
    Definition stmap (s : astate) : astate :=
      {| a_graph := gmap (a_graph s); a_t2v := a_t2v s; a_p2v := a_p2v s; a_varr := a_varr s |}.

    Variable ti : tindex.
    Variable filt : option props_filter.
    Definition asked (f : props_filter) (a b : token) : res bool :=
      d1 <- filtered_token_data a ;; d2 <- filtered_token_data b ;; Ok (f d1 d2).
    Hypothesis FH : forall f, filt = Some f -> forall a b, In a (ti_array ti) -> In b (ti_array ti) -> asked f (mt a) (mt b) = asked f a b.

    Lemma cube_step_map : forall start varr rank wst gst m i,
      cube_step (timap ti) start varr rank filt wst gst (cmap m) i = (y <- cube_step ti start varr rank filt wst gst m i ;; Ok (cmap y)).
    Proof.
      intros. unfold cube_step. destruct (aget varr (gst + i)) as [[v|]|e]; cbn [bind]; try reflexivity.
      destruct (dgetE Nat.eqb v rank) as [rk|e]; cbn [bind]; [|reflexivity]. cbn [timap ti_array]. rewrite !aget_map.
      destruct (aget (ti_array ti) (wst + i)) as [tok|e] eqn:E1; cbn [bind]; [|reflexivity].
      destruct filt as [f|] eqn:EF; cbn [bind].
      - destruct (aget (ti_array ti) gst) as [other|e] eqn:E2; cbn [bind]; [|reflexivity].
        assert (A : asked f (mt tok) (mt other) = asked f tok other).
        { apply (FH f eq_refl); eapply nth_error_In; apply aget_ok; eassumption. }
        unfold asked in A. rewrite A. clear A. destruct (filtered_token_data tok) as [d1|e]; cbn [bind]; [|reflexivity].
        destruct (filtered_token_data other) as [d2|e]; cbn [bind]; [|reflexivity].
        destruct (f d1 d2); [|reflexivity]. unfold cmap. rewrite <- dset_dv. reflexivity.
      - unfold cmap. rewrite <- dset_dv. reflexivity.
    Qed.
    Lemma cube_instance_map : forall start varr rank m wi,
      cube_instance (timap ti) start varr rank filt (cmap m) wi = (y <- cube_instance ti start varr rank filt m wi ;; Ok (cmap y)).
    Proof.
      intros start varr rank m [wst b]. unfold cube_instance. cbn [timap ti_sa].
      destruct (block_instances (ti_sa ti) b) as [all|e]; cbn [bind]; [|reflexivity].
      apply foldM_nat. intros s gst. apply foldM_nat. intros s' i. apply cube_step_map.
    Qed.
    Lemma match_cube_map : forall sg varr rank, match_cube (timap ti) sg varr rank filt = (y <- match_cube ti sg varr rank filt ;; Ok (cmap y)).
    Proof.
      intros. unfold match_cube. change (start_token_position (timap ti) sg) with (start_token_position ti sg).
      destruct (start_token_position ti sg) as [start|e]; cbn [bind]; [|reflexivity].
      change (block_instances_for_witness (timap ti) sg) with (block_instances_for_witness ti sg).
      change (@nil (coord * (vid * token))) with (cmap []) at 1. apply foldM_nat. intros. apply cube_instance_map.
    Qed.

    Lemma has_match_map : forall m y x, has_match (cmap m) y x = has_match m y x.
    Proof. intros. apply dmem_dv. Qed.
    Lemma fill_cells_map : forall m y ups x ul left, fill_cells (cmap m) y x ul left ups = fill_cells m y x ul left ups.
    Proof.
      intros m y. induction ups as [|u ups IH]; intros x ul left; cbn [fill_cells]; [reflexivity|].
      unfold sc_score, from_upper, sc_score. rewrite !has_match_map. f_equal. apply IH.
    Qed.
    Lemma more_rows_map : forall m n y prev, more_rows (cmap m) y n prev = more_rows m y n prev.
    Proof.
      intros m. induction n as [|n IH]; intros y prev; cbn [more_rows]; [reflexivity|]. unfold next_row. destruct prev as [|p0 ps].
      - f_equal. apply IH.
      - rewrite fill_cells_map. f_equal. apply IH.
    Qed.
    Lemma align_map : forall m cells, align_matching_tokens (cmap m) cells = align_matching_tokens m cells.
    Proof.
      intros. unfold align_matching_tokens. destruct (aget cells 0) as [row0|e]; cbn [bind]; [|reflexivity].
      destruct (score_iter _ _ _ _) as [path|e]; cbn [bind]; [|reflexivity]. f_equal. apply foldM_same.
      intros [al used] s _. unfold align_step. destruct (s_type s); try reflexivity. unfold get_match, cmap. rewrite dgetE_dv.
      destruct (dgetE coord_eqb _ m) as [[v t]|e]; cbn [bind]; [|reflexivity]. cbn [fst snd]. rewrite Mp. reflexivity.
    Qed.

    Lemma first_step_map : forall w, first_step (timap ti) (iwmap w) = (y <- first_step ti w ;; Ok (stmap y)).
    Proof.
      intros w. unfold first_step. cbn [iwmap iw_sigil iw_toks]. rewrite <- empty_gmap at 1. rewrite merge_gmap.
      destruct (merge empty_graph (iw_sigil w) (iw_toks w) []) as [[g d]|e]; cbn [bind]; [|reflexivity].
      change (get_range_for_witness (timap ti) (iw_sigil w)) with (get_range_for_witness ti (iw_sigil w)).
      destruct (get_range_for_witness ti (iw_sigil w)) as [r|e]; cbn [bind]; [|reflexivity]. cbn [timap ti_array]. rewrite map_length.
      destruct (update_varr _ _ _); reflexivity.
    Qed.
    Lemma next_step_map : forall detect st w,
      next_step topo filt detect (timap ti) (stmap st) (iwmap w) = (y <- next_step topo filt detect ti st w ;; Ok (stmap y)).
    Proof.
      intros detect st w. unfold next_step. cbn [iwmap iw_sigil iw_toks stmap a_graph a_t2v a_p2v a_varr]. rewrite ranking_gmap.
      destruct (ranking_of topo (a_graph st)) as [rk|e]; cbn [bind]; [|reflexivity]. rewrite vertices_gmap.
      destruct (mapM _ (vertices (a_graph st))) as [ranks|e]; cbn [bind]; [|reflexivity]. rewrite match_cube_map.
      destruct (match_cube ti (iw_sigil w) (a_varr st) (by_vertex rk) filt) as [m|e]; cbn [bind]; [|reflexivity].
      rewrite map_length. unfold fill_table. rewrite more_rows_map. rewrite align_map.
      destruct (align_matching_tokens m _) as [al|e]; cbn [bind]; [|reflexivity]. rewrite merge_gmap.
      destruct (merge (a_graph st) (iw_sigil w) (iw_toks w) al) as [[g' new]|e]; cbn [bind]; [|reflexivity].
      change (get_range_for_witness (timap ti) (iw_sigil w)) with (get_range_for_witness ti (iw_sigil w)).
      destruct (get_range_for_witness ti (iw_sigil w)) as [r|e]; cbn [bind]; [|reflexivity].
      destruct (foldM _ r []) as [wp|e]; cbn [bind]; [|reflexivity].
      destruct (update_varr r wp (a_varr st)) as [va|e]; cbn [bind]; [|reflexivity]. destruct detect; reflexivity.
    Qed.
    Lemma align_all_map : forall detect, align_all topo filt detect (timap ti) = (y <- align_all topo filt detect ti ;; Ok (stmap y)).
    Proof.
      intros. unfold align_all. cbn [timap ti_wits]. destruct (ti_wits ti) as [|w ws]; cbn [map]; [reflexivity|]. rewrite first_step_map.
      destruct (first_step ti w) as [st|e]; cbn [bind]; [|reflexivity]. apply foldM_nat_map. intros. apply next_step_map.
    Qed.
  End Topo.

  (** ** The table *)
  Definition colmap (c : column) : column := {| c_cells := dv (map mt) (c_cells c); c_variant := c_variant c |}.
  Definition rowmap (r : row) : row := {| r_header := r_header r; r_cells := map (option_map (map mt)) (r_cells r) |}.
  Definition tmap (t : table) : table := {| t_columns := map colmap (t_columns t); t_rows := map rowmap (t_rows t) |}.

  Lemma put_tokens_map : forall ts cells, put_tokens (dv (map mt) cells) (dv (map mt) ts) = dv (map mt) (put_tokens cells ts).
  Proof.
    unfold put_tokens. induction ts as [|[sg t] ts IH]; intros cells; cbn [dv map fold_left fst snd]; [reflexivity|].
    rewrite dset_dv. apply IH.
  Qed.
  Lemma column_step_map : forall g n k col v, column_step (gmap g) n k (option_map colmap col) v = (y <- column_step g n k col v ;; Ok (option_map colmap y)).
  Proof.
    intros. unfold column_step. destruct ((v =? v_start) || (v =? v_end)); [reflexivity|]. rewrite get_gmap.
    destruct (get_vertex g v) as [x|e]; cbn [bind]; [|reflexivity]. cbn [vmap v_tokens].
    replace (match option_map colmap col with Some c => c_cells c | None => [] end) with (dv (map mt) (match col with Some c => c_cells c | None => [] end))
      by (destruct col; reflexivity).
    rewrite put_tokens_map. cbn [option_map]. unfold colmap. cbn [c_cells c_variant]. rewrite dv_length. reflexivity.
  Qed.
  Lemma construct_columns_map : forall g n br, construct_columns (gmap g) n br = (y <- construct_columns g n br ;; Ok (map colmap y)).
  Proof.
    intros. unfold construct_columns. refine (foldM_nat _ _ (map colmap) br [] _). intros cols [k vs].
    unfold rank_column. change (@None column) with (option_map colmap None) at 1.
    rewrite (foldM_nat (column_step g n (length vs)) _ (option_map colmap)) by (intros; apply column_step_map).
    destruct (foldM (column_step g n (length vs)) vs None) as [[c|]|e]; cbn [bind option_map]; try reflexivity.
    rewrite map_app. reflexivity.
  Qed.
  Lemma construct_table_map : forall sigla g r, construct_table sigla (gmap g) r = (y <- construct_table sigla g r ;; Ok (tmap y)).
  Proof.
    intros. unfold construct_table. rewrite construct_columns_map. destruct (construct_columns g (length sigla) (by_rank r)) as [cols|e]; cbn [bind]; [|reflexivity].
    unfold tmap. cbn [t_columns t_rows]. do 2 f_equal. rewrite map_map. apply map_ext. intros sg. unfold construct_row, rowmap. cbn [r_header r_cells].
    f_equal. rewrite !map_map. apply map_ext. intros c. cbn [colmap c_cells]. apply dget_dv.
  Qed.
End Map.

(** ** The token index *)
Lemma ddel_dset_same : forall {V} k (v : V) d, ddel str_eqb k (dset str_eqb k v d) = ddel str_eqb k d.
Proof.
  intros V k v. induction d as [|[k' w] d IH]; cbn [dset ddel].
  - replace (str_eqb k k) with true by (symmetry; apply str_eqb_ok; reflexivity). reflexivity.
  - destruct (str_eqb k k') eqn:E; cbn [ddel]; rewrite E; [reflexivity|]. f_equal. exact IH.
Qed.
Lemma ddel_dset_other : forall {V} k k' (v : V) d, k <> k' -> ddel str_eqb k (dset str_eqb k' v d) = dset str_eqb k' v (ddel str_eqb k d).
Proof.
  intros V k k' v d N. induction d as [|[j w] d IH]; cbn [dset ddel].
  - destruct (str_eqb k k') eqn:E; [apply str_eqb_ok in E; contradiction|reflexivity].
  - destruct (str_eqb k' j) eqn:E1; cbn [ddel].
    + apply str_eqb_ok in E1. subst j. destruct (str_eqb k k') eqn:E2; [apply str_eqb_ok in E2; contradiction|]. cbn [dset].
      replace (str_eqb k' k') with true by (symmetry; apply str_eqb_ok; reflexivity). reflexivity.
    + destruct (str_eqb k j) eqn:E2; [reflexivity|]. cbn [dset]. rewrite E1. f_equal. exact IH.
Qed.

Definition mtD (D : list jdict) (t : token) : token :=
  match nth_error D (tk_pos t) with Some d => {| tk_pos := tk_pos t; tk_str := tk_str t; tk_data := d |} | None => t end.
Lemma mtD_pos : forall D t, tk_pos (mtD D t) = tk_pos t.
Proof. intros. unfold mtD. destruct (nth_error D (tk_pos t)); reflexivity. Qed.
Lemma mtD_str : forall D t, tk_str (mtD D t) = tk_str t.
Proof. intros. unfold mtD. destruct (nth_error D (tk_pos t)); reflexivity. Qed.

Section Prepare.
  Variable D : list jdict.
  Let mt := mtD D.
  Definition holds (pos : nat) (ts : list token) : Prop := forall i t, nth_error ts i = Some t -> nth_error D (pos + i) = Some (tk_data t).

  Lemma stamp_map : forall sg ts ts' pos, map t0_str ts' = map t0_str ts -> holds pos (stamp sg pos ts') -> map mt (stamp sg pos ts) = stamp sg pos ts'.
  Proof.
    intros sg. induction ts as [|t ts IH]; intros [|t' ts'] pos E H; try discriminate; [reflexivity|]. cbn [map] in E. injection E as E1 E2.
    cbn [stamp map]. f_equal.
    - unfold mt, mtD. cbn [tk_pos tk_str]. specialize (H 0 _ eq_refl). rewrite Nat.add_0_r in H. rewrite H. cbn [tk_data]. rewrite E1. reflexivity.
    - apply IH; [assumption|]. intros i u Hu. specialize (H (S i) u Hu). rewrite <- H. f_equal. lia.
  Qed.

  Variables pairs : list (tok0 * tok0).
  Definition stamp_data (sg : str) (pos : nat) (d : jdict) : jdict := dset str_eqb k_pos (JNum (Z.of_nat pos)) (dset str_eqb k_sigil (JStr sg) d).
  Definition fit (t : token) : Prop :=
    (mt t = t /\ exists e, filtered_token_data t = Raise e) \/
    (exists sg a a', In (a, a') pairs /\ tk_data t = stamp_data sg (tk_pos t) (t0_data a) /\ tk_data (mt t) = stamp_data sg (tk_pos t) (t0_data a')).

  Lemma filtered_stamped : forall sg pos d t, tk_data t = stamp_data sg pos d -> filtered_token_data t = Ok (user_entries d).
  Proof.
    intros sg pos d t E. unfold filtered_token_data, dgetE. rewrite E. unfold stamp_data.
    rewrite (dget_set_other _ str_eqb_ok) by discriminate. rewrite (dget_set_same _ str_eqb_ok). cbn [bind].
    rewrite ddel_dset_other by discriminate. rewrite ddel_dset_same. rewrite (dget_set_same _ str_eqb_ok). cbn [bind].
    rewrite ddel_dset_same. reflexivity.
  Qed.
  Lemma fit_sigil : forall t, fit t -> dget str_eqb k_sigil (tk_data (mt t)) = dget str_eqb k_sigil (tk_data t).
  Proof.
    intros t [[-> _]|[sg [a [a' [_ [-> ->]]]]]]; [reflexivity|]. unfold stamp_data.
    transitivity (Some (JStr sg)); [|symmetry]; rewrite (dget_set_other _ str_eqb_ok) by discriminate; apply (dget_set_same _ str_eqb_ok).
  Qed.
  Lemma stamp_fit : forall sg ts ts' pos, map t0_str ts' = map t0_str ts -> holds pos (stamp sg pos ts') ->
    (forall a, In a (combine ts ts') -> In a pairs) -> Forall fit (stamp sg pos ts).
  Proof.
    intros sg. induction ts as [|t ts IH]; intros [|t' ts'] pos E H P; try discriminate; [constructor|]. cbn [map] in E. injection E as E1 E2.
    cbn [stamp]. constructor.
    - specialize (H 0 _ eq_refl). rewrite Nat.add_0_r in H. right. exists sg, t, t'. split; [apply P; left; reflexivity|].
      split; [reflexivity|]. unfold mt, mtD. cbn [tk_pos]. rewrite H. reflexivity.
    - apply (IH ts'); [assumption| |intros a Ha; apply P; right; assumption]. intros i u Hu. specialize (H (S i) u Hu). rewrite <- H. f_equal. lia.
  Qed.
  Lemma marker_mt : forall idx pos sg, holds pos [marker idx pos sg] -> mt (marker idx pos sg) = marker idx pos sg.
  Proof. intros idx pos sg H. specialize (H 0 _ eq_refl). rewrite Nat.add_0_r in H. unfold mt, mtD. cbn [marker tk_pos]. rewrite H. reflexivity. Qed.
  Lemma marker_fit : forall idx pos sg, holds pos [marker idx pos sg] -> fit (marker idx pos sg).
  Proof.
    intros. left. split; [apply marker_mt; assumption|]. exists KeyError. reflexivity.
  Qed.

  Definition out3 (x : list (str * list nat) * list token * list iwitness) : list (str * list nat) * list token * list iwitness :=
    let '(r, a, o) := x in (r, map mt a, map (iwmap mt) o).

  Lemma holds_app : forall pos l1 l2, holds pos (l1 ++ l2) -> holds pos l1 /\ holds (pos + length l1) l2.
  Proof.
    intros pos l1 l2 H. split; intros i t Hi.
    - apply H. rewrite nth_error_app1; [assumption|]. apply nth_error_Some. congruence.
    - rewrite <- Nat.add_assoc. apply H. rewrite nth_error_app2 by lia. replace (length l1 + i - length l1) with i by lia. assumption.
  Qed.

  Lemma prepare_loop_map : forall c c', same_texts c c' -> forall idx counter tap ranges arr out,
    holds tap (IndexProof.layout idx tap c') -> (forall a, In a (counterparts c c') -> In a pairs) ->
    Forall fit arr -> Forall (fun w => Forall fit (iw_toks w)) out ->
    prepare_loop c' idx counter tap ranges (map mt arr) (map (iwmap mt) out) =
      (x <- prepare_loop c idx counter tap ranges arr out ;; Ok (out3 x)) /\
    forall r a o, prepare_loop c idx counter tap ranges arr out = Ok (r, a, o) -> Forall fit a /\ Forall (fun w => Forall fit (iw_toks w)) o.
  Proof.
    intros c c' S. induction S as [|w w' c c' [Esg Est] S IH]; intros idx counter tap ranges arr out H P F FO; cbn [prepare_loop].
    - split; [reflexivity|]. intros r a o E. injection E as <- <- <-. split; assumption.
    - assert (EL : length (w_toks w') = length (w_toks w)) by (rewrite <- (map_length t0_str), Est, map_length; reflexivity).
      cbn [IndexProof.layout] in H. rewrite Esg, EL in H. apply holds_app in H as [H1 H]. apply holds_app in H as [H2 H3].
      rewrite IndexProof.stamp_length, EL in H2, H3. cbn [length] in H3. rewrite Esg, EL.
      assert (PF : Forall fit (stamp (w_sigil w) tap (w_toks w))).
      { apply (stamp_fit _ _ (w_toks w')); auto. intros a Ha. apply P. unfold counterparts. cbn [flat_map].
        assert (EC : forall l1 l2 l1' l2' : list tok0, length l1 = length l1' -> combine (l1 ++ l2) (l1' ++ l2') = combine l1 l1' ++ combine l2 l2').
        { induction l1 as [|z l1 IHl]; intros l2 [|z' l1'] l2' E; try discriminate; [reflexivity|]. cbn [app combine]. f_equal. apply IHl. injection E; auto. }
        rewrite EC by (symmetry; assumption). apply in_or_app. auto. }
      destruct (range_of counter (counter + length (w_toks w))) as [rg|e]; cbn [bind]; [|split; [reflexivity|discriminate]].
      specialize (IH (idx + 1) (counter + length (w_toks w) + 1) (tap + length (w_toks w) + 1) (dset str_eqb (w_sigil w) rg ranges)
        (arr ++ stamp (w_sigil w) tap (w_toks w) ++ [marker idx (tap + length (w_toks w)) (w_sigil w)])
        (out ++ [{| iw_sigil := w_sigil w; iw_toks := stamp (w_sigil w) tap (w_toks w) |}])).
      assert (EM : map mt (arr ++ stamp (w_sigil w) tap (w_toks w) ++ [marker idx (tap + length (w_toks w)) (w_sigil w)]) =
        map mt arr ++ stamp (w_sigil w) tap (w_toks w') ++ [marker idx (tap + length (w_toks w)) (w_sigil w)]).
      { rewrite !map_app. cbn [map]. rewrite marker_mt by assumption. rewrite (stamp_map _ _ (w_toks w')) by assumption. reflexivity. }
      assert (EO : map (iwmap mt) (out ++ [{| iw_sigil := w_sigil w; iw_toks := stamp (w_sigil w) tap (w_toks w) |}]) =
        map (iwmap mt) out ++ [{| iw_sigil := w_sigil w; iw_toks := stamp (w_sigil w) tap (w_toks w') |}]).
      { rewrite map_app. cbn [map iwmap iw_sigil iw_toks]. unfold iwmap at 2. cbn [iw_sigil iw_toks]. rewrite (stamp_map _ _ (w_toks w')) by assumption. reflexivity. }
      rewrite EM, EO in IH. apply IH.
      + assumption.
      + intros a Ha. apply P. unfold counterparts. cbn [flat_map].
        assert (EC : forall l1 l2 l1' l2' : list tok0, length l1 = length l1' -> combine (l1 ++ l2) (l1' ++ l2') = combine l1 l1' ++ combine l2 l2').
        { induction l1 as [|z l1 IHl]; intros l2 [|z' l1'] l2' E; try discriminate; [reflexivity|]. cbn [app combine]. f_equal. apply IHl. injection E; auto. }
        rewrite EC by (symmetry; assumption). apply in_or_app. auto.
      + apply Forall_app. split; [assumption|]. apply Forall_app. split; [assumption|]. constructor; [apply marker_fit; assumption|constructor].
      + apply Forall_app. split; [assumption|]. constructor; [exact PF|constructor].
  Qed.

  Lemma instances_map : forall arr sa bs, Forall fit arr -> construct_instances (map mt arr) sa bs = construct_instances arr sa bs.
  Proof.
    intros arr sa bs F. unfold construct_instances. apply foldM_same. intros m b _.
    destruct (block_instances sa b) as [ps|e]; cbn [bind]; [|reflexivity]. apply foldM_same. intros m' p _. unfold add_instance.
    assert (E : token_sigil (map mt arr) p = token_sigil arr p).
    { unfold token_sigil. rewrite aget_map. destruct (aget arr p) as [t|e] eqn:E; cbn [bind]; [|reflexivity]. unfold dgetE.
      apply aget_ok, nth_error_In in E. rewrite Forall_forall in F. rewrite (fit_sigil t (F t E)). reflexivity. }
    rewrite E. reflexivity.
  Qed.
End Prepare.

Theorem prepare_map : forall c c', same_texts c c' -> let D := map tk_data (IndexProof.layout 0 0 c') in
  prepare c' = (ti <- prepare c ;; Ok (timap (mtD D) ti)) /\
  forall ti, prepare c = Ok ti -> Forall (fit D (counterparts c c')) (ti_array ti) /\
    Forall (fun w => Forall (fit D (counterparts c c')) (iw_toks w)) (ti_wits ti).
Proof.
  intros c c' S D.
  assert (H : holds D 0 (IndexProof.layout 0 0 c')).
  { intros i t Hi. cbn [plus]. unfold D. rewrite nth_error_map, Hi. reflexivity. }
  destruct (prepare_loop_map D (counterparts c c') c c' S 0 0 0 [] [] [] H (fun _ h => h) (Forall_nil _) (Forall_nil _)) as [E F]. cbn [map] in E.
  unfold prepare, prepare_array. rewrite E. destruct (prepare_loop c 0 0 0 [] [] []) as [[[r a] o]|e]; cbn [bind out3]; [|split; [reflexivity|discriminate]].
  destruct (F r a o eq_refl) as [F1 F2]. clear F. rename F1 into F.
  assert (EP : pop_last (map (mtD D) a) = (y <- pop_last a ;; Ok (map (mtD D) y))).
  { assert (ER : forall l, removelast (map (mtD D) l) = map (mtD D) (removelast l)).
    { induction l as [|x [|y l] IHl]; [reflexivity|reflexivity|]. cbn [map removelast] in *. f_equal. exact IHl. }
    destruct a as [|x a]; [reflexivity|]. unfold pop_last. cbn [map]. cbn [bind]. rewrite <- (ER (x :: a)). reflexivity. }
  rewrite EP. destruct (pop_last a) as [a'|e] eqn:EA; cbn [bind]; [|split; [reflexivity|discriminate]].
  assert (F' : Forall (fit D (counterparts c c')) a').
  { destruct a as [|x a]; [discriminate|]. unfold pop_last in EA. injection EA as <-. rewrite Forall_forall in *. intros t Ht. apply F.
    rewrite (app_removelast_last x (l := x :: a)) by discriminate. apply in_or_app. left. exact Ht. }
  replace (map tk_str (map (mtD D) a')) with (map tk_str a') by (rewrite map_map; apply map_ext; intros t; symmetry; apply mtD_str).
  destruct (suffix_array (map tk_str a')) as [sa|e]; cbn [bind]; [|split; [reflexivity|discriminate]].
  destruct (split_lcp (sa_LCP sa)) as [bs|e]; cbn [bind]; [|split; [reflexivity|discriminate]].
  rewrite (instances_map D (counterparts c c')) by assumption.
  destruct (construct_instances a' (sa_SA sa) bs) as [inst|e]; cbn [bind]; [|split; [reflexivity|discriminate]].
  split; [reflexivity|]. intros ti E2. injection E2 as <-. split; [exact F'|exact F2].
Qed.

Lemma fit_asked : forall D pairs f a b, fit D pairs a -> fit D pairs b ->
  (forall x x' y y', In (x, x') pairs -> In (y, y') pairs ->
     f (user_entries (t0_data x')) (user_entries (t0_data y')) = f (user_entries (t0_data x)) (user_entries (t0_data y))) ->
  asked f (mtD D a) (mtD D b) = asked f a b.
Proof.
  intros D pairs f a b Fa Fb A. unfold asked. destruct Fa as [[-> [e ->]]|[sg [x [x' [Hx [E1 E2]]]]]]; [reflexivity|].
  rewrite (filtered_stamped _ _ _ _ E1), (filtered_stamped _ _ _ _ E2). cbn [bind].
  destruct Fb as [[-> [e ->]]|[sg' [y [y' [Hy [E3 E4]]]]]]; [reflexivity|].
  rewrite (filtered_stamped _ _ _ _ E3), (filtered_stamped _ _ _ _ E4). cbn [bind]. f_equal. auto.
Qed.

(** ** collate *)
Section Collate.
  Variables (cc : cclass) (topo : graph -> res (list vid)) (ratio : str -> str -> Q).
  Hypothesis TS : structural topo.

  (** collate_graph after the token index. *)
  Definition finish (ti : tindex) (o : options) : res (graph * ranking) :=
    st <- align_all topo (o_filter o) (o_transp o) ti ;;
    rk <- ranking_of topo (a_graph st) ;;
    '(g, rk) <- (if o_near o then if o_segmentation o then Raise SegmentationError else perform_near_match topo ratio (a_graph st) rk
                 else Ok (a_graph st, rk)) ;;
    if o_segmentation o then g' <- join cc g ;; rk' <- ranking_of topo g' ;; Ok (g', rk') else Ok (g, rk).
  Lemma collate_graph_finish : forall c o, collate_graph cc topo ratio c o = if o_astar o then Raise TypeError else ti <- prepare c ;; finish ti o.
  Proof.
    intros. unfold collate_graph, finish. destruct (o_astar o); [reflexivity|]. unfold aligner_collate.
    destruct (prepare c) as [ti|e]; cbn [bind]; [|reflexivity]. destruct (align_all topo (o_filter o) (o_transp o) ti); reflexivity.
  Qed.
  Lemma finish_map : forall mt ti o, (forall t, tk_pos (mt t) = tk_pos t) -> (forall t, tk_str (mt t) = tk_str t) ->
    (forall f, o_filter o = Some f -> forall a b, In a (ti_array ti) -> In b (ti_array ti) -> asked f (mt a) (mt b) = asked f a b) ->
    finish (timap mt ti) o = (y <- finish ti o ;; Ok (grmap mt y)).
  Proof.
    intros mt ti o Mp Ms A. unfold finish.
    rewrite (align_all_map mt Mp Ms topo TS ti (o_filter o)) by exact A.
    destruct (align_all topo (o_filter o) (o_transp o) ti) as [st|e]; cbn [bind stmap a_graph]; [|reflexivity].
    rewrite (ranking_gmap mt topo TS). destruct (ranking_of topo (a_graph st)) as [rk|e]; cbn [bind]; [|reflexivity].
    assert (J : forall g r, (if o_segmentation o then g' <- join cc (gmap mt g) ;; rk' <- ranking_of topo g' ;; Ok (g', rk') else Ok (gmap mt g, r)) =
      (y <- (if o_segmentation o then g' <- join cc g ;; rk' <- ranking_of topo g' ;; Ok (g', rk') else Ok (g, r)) ;; Ok (grmap mt y))).
    { intros g r. destruct (o_segmentation o); [|reflexivity]. rewrite join_gmap by assumption. destruct (join cc g) as [g'|e]; cbn [bind]; [|reflexivity].
      rewrite (ranking_gmap mt topo TS). destruct (ranking_of topo g'); reflexivity. }
    destruct (o_near o).
    - destruct (o_segmentation o); [reflexivity|]. rewrite (near_gmap mt topo TS ratio).
      destruct (perform_near_match topo ratio (a_graph st) rk) as [[g r]|e]; cbn [bind]; reflexivity.
    - cbn [bind]. apply J.
  Qed.

  Theorem graph_param : forall c c' o, same_texts c c' -> same_answers (o_filter o) c c' ->
    exists mt, (forall t, tk_pos (mt t) = tk_pos t) /\ (forall t, tk_str (mt t) = tk_str t) /\
      collate_graph cc topo ratio c' o = (y <- collate_graph cc topo ratio c o ;; Ok (grmap mt y)).
  Proof.
    intros c c' o S A. destruct (prepare_map c c' S) as [E F]. set (D := map tk_data (IndexProof.layout 0 0 c')) in *.
    exists (mtD D). split; [apply mtD_pos|]. split; [apply mtD_str|].
    rewrite !collate_graph_finish. destruct (o_astar o); [reflexivity|]. rewrite E.
    destruct (prepare c) as [ti|e]; cbn [bind]; [|reflexivity]. destruct (F ti eq_refl) as [F1 _].
    apply finish_map; [apply mtD_pos|apply mtD_str|].
    intros f Ef a b Ha Hb. rewrite Forall_forall in F1. apply (fit_asked D (counterparts c c')); auto.
  Qed.
End Collate.

(** Kahn's algorithm looks at nodes and edges only. *)
Lemma kahn_structural : structural kahn.
Proof.
  intros g g' V E. unfold kahn, vertices in *.
  assert (L : length (g_verts g') = length (g_verts g)) by (rewrite <- (map_length fst), V, map_length; reflexivity).
  assert (I : forall v, in_edges g' v = in_edges g v) by (intros; unfold in_edges; rewrite E; reflexivity).
  assert (O : forall v, out_edges g' v = out_edges g v) by (intros; unfold out_edges; rewrite E; reflexivity).
  assert (K : forall f ind z out, kahn_loop f g' ind z out = kahn_loop f g ind z out).
  { induction f as [|f IH]; intros ind z out; [reflexivity|]. cbn [kahn_loop]. destruct z as [|v z]; [reflexivity|]. rewrite O.
    destruct (fold_left kahn_relax (out_edges g v) (ind, z)). apply IH. }
  assert (ID : indegrees g' = indegrees g).
  { unfold indegrees, vertices. rewrite V. apply map_ext. intros v. rewrite I. reflexivity. }
  assert (Z : filter (fun v => length (in_edges g' v) =? 0) (map fst (g_verts g')) = filter (fun v => length (in_edges g v) =? 0) (map fst (g_verts g))).
  { rewrite V. apply filter_ext. intros v. rewrite I. reflexivity. }
  rewrite L, K, ID, Z. reflexivity.
Qed.

Section Shape.
  Variable mt : token -> token.
  Hypothesis Mp : forall t, tk_pos (mt t) = tk_pos t.
  Hypothesis Ms : forall t, tk_str (mt t) = tk_str t.

  Lemma Forall2_map_r : forall {A B} (R : A -> B -> Prop) (f : A -> B) l, (forall x, R x (f x)) -> Forall2 R l (map f l).
  Proof. intros A B R f l H. induction l; constructor; auto. Qed.
  Lemma pos_map : forall l, map tk_pos (map mt l) = map tk_pos l.
  Proof. intros. rewrite map_map. apply map_ext. assumption. Qed.
  Lemma str_map : forall l, map tk_str (map mt l) = map tk_str l.
  Proof. intros. rewrite map_map. apply map_ext. assumption. Qed.
  Lemma tmap_same : forall t, same_alignment t (tmap mt t).
  Proof.
    intros t. split; cbn [tmap t_columns t_rows].
    - rewrite map_map. apply map_ext. reflexivity.
    - apply Forall2_map_r. intros r. split; [reflexivity|]. cbn [rowmap r_cells]. apply Forall2_map_r. intros [l|]; cbn; [|exact I].
      split; [apply pos_map|apply str_map].
  Qed.
  Lemma gmap_same : forall g, same_drawing g (gmap mt g).
  Proof.
    intros g. split; [reflexivity|]. split; [reflexivity|]. cbn [gmap g_verts]. unfold dv. apply Forall2_map_r. intros [v x]. cbn [fst snd].
    split; [reflexivity|]. split; [reflexivity|]. cbn [vmap v_tokens]. unfold dv. apply Forall2_map_r. intros [sg l]. cbn [fst snd].
    split; [reflexivity|]. split; [apply pos_map|apply str_map].
  Qed.
End Shape.

Lemma same_texts_sigla : forall c c', same_texts c c' -> map w_sigil c' = map w_sigil c.
Proof. intros c c' S. induction S as [|w w' c c' [E _] S IH]; cbn [map]; congruence. Qed.

Section Output.
  Variables (cc : cclass) (topo : graph -> res (list vid)) (ratio : str -> str -> Q).
  Hypothesis TS : structural topo.

  Theorem table_param : forall c c' o, same_texts c c' -> same_answers (o_filter o) c c' -> o_output o = lit "table" ->
    match collate cc topo ratio c o with
    | Ok (OTable t) => exists t', collate cc topo ratio c' o = Ok (OTable t') /\ same_alignment t t'
    | Ok _ => False
    | Raise e => collate cc topo ratio c' o = Raise e
    end.
  Proof.
    intros c c' o S A T. destruct (graph_param cc topo ratio TS c c' o S A) as [mt [Mp [Ms E]]]. unfold collate. rewrite E.
    destruct (collate_graph cc topo ratio c o) as [[g rk]|e]; cbn [bind grmap fst snd]; [|reflexivity].
    unfold render. rewrite T, (same_texts_sigla _ _ S).
    change (str_eqb (lit "table") (lit "svg")) with false. change (str_eqb (lit "table") (lit "svg_simple")) with false.
    change (str_eqb (lit "table") (lit "graph")) with false. change (str_eqb (lit "table") (lit "json")) with false.
    change (str_eqb (lit "table") (lit "html")) with false. change (str_eqb (lit "table") (lit "html2")) with false.
    change (str_eqb (lit "table") (lit "table")) with true. cbv iota. rewrite construct_table_map.
    destruct (construct_table (map w_sigil c) g rk) as [t|e]; cbn [bind]; [|reflexivity].
    eexists. split; [reflexivity|]. apply tmap_same; assumption.
  Qed.

  Theorem drawing_param : forall c c' o, same_texts c c' -> same_answers (o_filter o) c c' -> o_output o = lit "graph" ->
    match collate cc topo ratio c o with
    | Ok (OGraph g) => exists g', collate cc topo ratio c' o = Ok (OGraph g') /\ same_drawing g g'
    | Ok _ => False
    | Raise e => collate cc topo ratio c' o = Raise e
    end.
  Proof.
    intros c c' o S A T. destruct (graph_param cc topo ratio TS c c' o S A) as [mt [Mp [Ms E]]]. unfold collate. rewrite E.
    destruct (collate_graph cc topo ratio c o) as [[g rk]|e]; cbn [bind grmap fst snd]; [|reflexivity].
    unfold render. rewrite T.
    change (str_eqb (lit "graph") (lit "svg")) with false. change (str_eqb (lit "graph") (lit "svg_simple")) with false.
    change (str_eqb (lit "graph") (lit "graph")) with true. cbv iota.
    eexists. split; [reflexivity|]. apply gmap_same; assumption.
  Qed.
End Output.
