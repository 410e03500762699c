(** Texts in which the same tokens are equal are aligned alike. *)
From Verif Require Import Py Lib TokenModel SuffixModel IndexModel GraphModel AlignModel TableModel NearModel ExportModel CollateModel GraphSpec SuffixSpec
  GraphProof MergeProof RankProof TableSpec AlignProof IndexProof BlockText InstProof CubeProof AlignerProof CollateProof CollateSpec StageProof
  ErrorProof PairProof WalkSpec WalkProof WalkAlign WalkStage TableProof GrowSpec GrowProof ParamSpec ParamProof RenameProof WordSpec.
From Coq Require Import Sorted QArith.
Open Scope list_scope.
Open Scope nat_scope.

(** ** Dictionaries with related values *)
Definition drel {K V W} (R : V -> W -> Prop) (d : list (K * V)) (d' : list (K * W)) : Prop :=
  Forall2 (fun e e' => fst e' = fst e /\ R (snd e) (snd e')) d d'.
Section DRel.
  Context {K V W : Type} (eqb : K -> K -> bool) (R : V -> W -> Prop).
  Lemma drel_keys : forall (d : list (K * V)) (d' : list (K * W)), drel R d d' -> map fst d' = map fst d.
  Proof. intros d d' H. induction H as [|e e' d d' [E _] H IH]; [reflexivity|]. cbn [map]. congruence. Qed.
  Lemma drel_length : forall (d : list (K * V)) (d' : list (K * W)), drel R d d' -> length d' = length d.
  Proof. intros d d' H. rewrite <- (map_length fst d'), (drel_keys _ _ H). apply map_length. Qed.
  Lemma dget_rel : forall k d d', drel R d d' ->
    match dget eqb k d, dget eqb k d' with Some v, Some w => R v w | None, None => True | _, _ => False end.
  Proof.
    intros k d d' H. induction H as [|[j v] [j' w] d d' [E HR] H IH]; cbn [dget]; [exact I|]. cbn [fst snd] in *. subst j'.
    destruct (eqb k j); assumption.
  Qed.
  Lemma dset_rel : forall k v w d d', R v w -> drel R d d' -> drel R (dset eqb k v d) (dset eqb k w d').
  Proof.
    intros k v w d d' HR H. induction H as [|[j a] [j' b] d d' [E HR2] H IH]; cbn [dset].
    - constructor; [split; [reflexivity|assumption]|constructor].
    - cbn [fst snd] in *. subst j'. destruct (eqb k j); constructor; try (split; [reflexivity|assumption]); assumption.
  Qed.
  Lemma ddel_rel : forall k d d', drel R d d' -> drel R (ddel eqb k d) (ddel eqb k d').
  Proof.
    intros k d d' H. induction H as [|[j a] [j' b] d d' [E HR2] H IH]; cbn [ddel]; [constructor|].
    cbn [fst snd] in *. subst j'. destruct (eqb k j); [assumption|]. constructor; [split; [reflexivity|assumption]|assumption].
  Qed.
  Lemma dmem_rel : forall k d d', drel R d d' -> dmem eqb k d' = dmem eqb k d.
  Proof.
    intros k d d' H. unfold dmem. pose proof (dget_rel k d d' H) as Q. destruct (dget eqb k d), (dget eqb k d'); try contradiction; reflexivity.
  Qed.
  Lemma dgetE_rel : forall k d d', drel R d d' -> rres R (dgetE eqb k d) (dgetE eqb k d').
  Proof.
    intros k d d' H. unfold dgetE. pose proof (dget_rel k d d' H) as Q. destruct (dget eqb k d), (dget eqb k d'); cbn; try contradiction; auto.
  Qed.
End DRel.

(** ** Graphs whose vertices hold the tokens at the same places *)
Definition plike (l l' : list token) : Prop := map tk_pos l' = map tk_pos l.
Definition vrel (x x' : vertex) : Prop := drel plike (v_tokens x) (v_tokens x').
Record grel (g g' : graph) : Prop := {
  gr_verts : drel vrel (g_verts g) (g_verts g');
  gr_edges : g_edges g' = g_edges g;
  gr_near : g_near g' = g_near g;
  gr_next : g_next g' = g_next g
}.

Lemma grel_vertices : forall g g', grel g g' -> vertices g' = vertices g.
Proof. intros g g' H. unfold vertices. apply (drel_keys vrel). apply H. Qed.
Lemma get_rel : forall g g' v, grel g g' -> rres vrel (get_vertex g v) (get_vertex g' v).
Proof. intros g g' v H. unfold get_vertex. apply dgetE_rel. apply H. Qed.
Lemma plike_snoc : forall l l' t t', plike l l' -> tk_pos t' = tk_pos t -> plike (l ++ [t]) (l' ++ [t']).
Proof. intros l l' t t' H E. unfold plike in *. rewrite !map_app, H. cbn [map]. rewrite E. reflexivity. Qed.
Lemma new_vrel : forall t t' sg, tk_pos t' = tk_pos t -> vrel (new_vertex t sg) (new_vertex t' sg).
Proof.
  intros t t' sg E. unfold vrel, new_vertex. cbn [v_tokens]. destruct sg; constructor; [|constructor]. split; [reflexivity|].
  unfold plike. cbn [snd map]. congruence.
Qed.
Lemma add_token_vrel : forall x x' sg t t', vrel x x' -> tk_pos t' = tk_pos t -> vrel (vertex_add_token x sg t) (vertex_add_token x' sg t').
Proof.
  intros x x' sg t t' H E. unfold vrel, vertex_add_token in *. cbn [v_tokens].
  pose proof (dget_rel str_eqb plike sg _ _ H) as Q. destruct (dget str_eqb sg (v_tokens x)), (dget str_eqb sg (v_tokens x')); try contradiction.
  - apply dset_rel; [|assumption]. apply plike_snoc; assumption.
  - apply dset_rel; [|assumption]. unfold plike. cbn [map]. congruence.
Qed.
Lemma update_rel : forall g g' v x x', grel g g' -> vrel x x' -> grel (update_vertex g v x) (update_vertex g' v x').
Proof. intros g g' v x x' [A B C D] H. constructor; cbn; try assumption. apply dset_rel; assumption. Qed.
Lemma connect_rel : forall g g' u v l, grel g g' -> grel (connect g u v l) (connect g' u v l).
Proof. intros g g' u v l [A B C D]. constructor; cbn; try assumption. rewrite B. reflexivity. Qed.
Lemma add_vertex_rel : forall g g' t t' sg, grel g g' -> tk_pos t' = tk_pos t ->
  grel (fst (add_vertex g t sg)) (fst (add_vertex g' t' sg)) /\ snd (add_vertex g' t' sg) = snd (add_vertex g t sg).
Proof.
  intros g g' t t' sg [A B C D] E. unfold add_vertex. cbn [fst snd]. split; [|assumption]. constructor; cbn; try congruence.
  apply Forall2_app; [assumption|]. constructor; [|constructor]. cbn [fst snd]. split; [assumption|]. apply new_vrel. assumption.
Qed.
Lemma graph_add_rel : forall g g' v sg t t', grel g g' -> tk_pos t' = tk_pos t -> rres grel (graph_add_token g v sg t) (graph_add_token g' v sg t').
Proof.
  intros g g' v sg t t' H E. unfold graph_add_token. apply (rres_bind vrel); [apply get_rel; assumption|]. intros x x' HX. cbn.
  apply update_rel; [assumption|]. apply add_token_vrel; assumption.
Qed.

Definition mrel (x x' : graph * nat * list (nat * nat)) : Prop :=
  grel (fst (fst x)) (fst (fst x')) /\ snd (fst x') = snd (fst x) /\ snd x' = snd x.
Lemma merge_tokens_rel : forall sg al ts ts' g g' last t2v, plike ts ts' -> grel g g' ->
  rres mrel (merge_tokens g sg ts al last t2v) (merge_tokens g' sg ts' al last t2v).
Proof.
  intros sg al. induction ts as [|t ts IH]; intros [|t' ts'] g g' last t2v P H; try discriminate P; cbn [merge_tokens].
  - cbn. split; [assumption|]. split; reflexivity.
  - unfold plike in P. cbn [map] in P. injection P as E P. rewrite E. destruct (dget Nat.eqb (tk_pos t) al) as [v|].
    + apply (rres_bind grel); [apply graph_add_rel; assumption|]. intros g1 g1' H1. apply IH; [assumption|]. apply connect_rel. assumption.
    + destruct (add_vertex_rel g g' t t' sg H E) as [A B]. destruct (add_vertex g t sg) as [g1 v]. destruct (add_vertex g' t' sg) as [g1' v'].
      cbn [fst snd] in A, B. subst v'. apply IH; [assumption|]. apply connect_rel. assumption.
Qed.
Lemma merge_rel : forall sg al ts ts' g g', plike ts ts' -> grel g g' ->
  rres (fun x x' => grel (fst x) (fst x') /\ snd x' = snd x) (merge g sg ts al) (merge g' sg ts' al).
Proof.
  intros sg al ts ts' g g' P H. unfold merge. apply (rres_bind mrel); [apply merge_tokens_rel; assumption|].
  intros [[g1 l] d] [[g1' l'] d'] [A [B C]]. cbn [fst snd] in *. subst. cbn. split; [|reflexivity]. apply connect_rel. assumption.
Qed.
Lemma grel_refl_empty : grel empty_graph empty_graph.
Proof. constructor; try reflexivity. cbn. repeat constructor. Qed.

(** ** Ranking, segmentation, table *)
Lemma in_edges_rel : forall g g' v, grel g g' -> in_edges g' v = in_edges g v.
Proof. intros g g' v H. unfold in_edges. rewrite (gr_edges _ _ H). reflexivity. Qed.
Lemma out_edges_rel : forall g g' v, grel g g' -> out_edges g' v = out_edges g v.
Proof. intros g g' v H. unfold out_edges. rewrite (gr_edges _ _ H). reflexivity. Qed.
Lemma ranking_rel : forall topo g g', structural topo -> grel g g' -> ranking_of topo g' = ranking_of topo g.
Proof.
  intros topo g g' TS H. unfold ranking_of. rewrite (TS g g' (grel_vertices _ _ H) (gr_edges _ _ H)).
  destruct (topo g) as [order|e]; cbn [bind]; [|reflexivity].
  assert (E : foldM (rank_step g') order {| by_vertex := []; by_rank := [] |} = foldM (rank_step g) order {| by_vertex := []; by_rank := [] |}).
  { apply foldM_same. intros r v _. unfold rank_step. rewrite (in_edges_rel _ _ v H). reflexivity. }
  rewrite E. destruct (foldM (rank_step g) order _) as [r|e]; cbn [bind]; [|reflexivity].
  apply foldM_same. intros s v _. unfold in_near_edges. rewrite (gr_near _ _ H). reflexivity.
Qed.

Lemma remove_edge_rel : forall g g' u v, grel g g' -> rres grel (remove_edge g u v) (remove_edge g' u v).
Proof.
  intros g g' u v [A B C D]. unfold remove_edge. rewrite B. destruct (dmem edge_eqb (u, v) (g_edges g)); cbn; [|reflexivity]. constructor; cbn; auto.
Qed.
Lemma remove_node_rel : forall g g' v, grel g g' -> rres grel (remove_node g v) (remove_node g' v).
Proof.
  intros g g' v [A B C D]. unfold remove_node. rewrite (dmem_rel Nat.eqb vrel v _ _ A), B.
  destruct (dmem Nat.eqb v (g_verts g)); cbn; [|reflexivity]. constructor; cbn; auto. apply ddel_rel. assumption.
Qed.
Lemma aget_plike : forall l l' i, plike l l' -> rres (fun t t' => tk_pos t' = tk_pos t) (aget l i) (aget l' i).
Proof.
  intros l l' i P. unfold aget. unfold plike in P. apply (f_equal (fun z => nth_error z i)) in P. rewrite !nth_error_map in P.
  destruct (nth_error l i), (nth_error l' i); cbn in *; try discriminate; congruence.
Qed.
Lemma join_vertices_rel : forall cc g g' cand v, grel g g' -> rres grel (join_vertices cc g cand v) (join_vertices cc g' cand v).
Proof.
  intros cc g g' cand v H. unfold join_vertices. apply (rres_bind vrel); [apply get_rel; assumption|]. intros x x' HX.
  apply (rres_bind vrel); [apply get_rel; assumption|]. intros y y' HY. apply (rres_bind vrel).
  - apply (foldM_rel (fun e e' => fst e' = fst e /\ plike (snd e) (snd e')) vrel).
    + exact HY.
    + exact HX.
    + intros z z' [sg ts] [sg' ts'] HZ [E P]. cbn [fst snd] in *. subst sg'.
      apply (rres_bind (fun t t' => tk_pos t' = tk_pos t)); [apply aget_plike; assumption|]. intros t t' Et. cbn. apply add_token_vrel; assumption.
  - intros z z' HZ. cbn. apply update_rel; assumption.
Qed.
Lemma absorb_rel : forall cc g g' cand v, grel g g' -> rres grel (absorb cc g cand v) (absorb cc g' cand v).
Proof.
  intros cc g g' cand v H. unfold absorb. apply (rres_bind grel); [apply join_vertices_rel; assumption|]. intros g1 g1' H1.
  apply (rres_bind grel).
  - rewrite (out_edges_rel _ _ cand H1). apply foldM_rel_same; [assumption|]. intros s s' e HS.
    apply (rres_bind grel); [apply remove_edge_rel; assumption|]. intros s1 s1' HS1. cbn. apply connect_rel. assumption.
  - intros g2 g2' H2. apply (rres_bind grel); [apply remove_edge_rel; assumption|]. intros g3 g3' H3. apply remove_node_rel. assumption.
Qed.
Lemma join_loop_rel : forall cc fuel g g' q p, grel g g' -> rres grel (join_loop cc fuel g q p) (join_loop cc fuel g' q p).
Proof.
  intros cc. induction fuel as [|f IH]; intros g g' q p H; destruct q as [|v q]; cbn [join_loop]; try exact H; try reflexivity.
  rewrite (dmem_rel Nat.eqb vrel v _ _ (gr_verts _ _ H)). destruct (negb (dmem Nat.eqb v (g_verts g))); [reflexivity|].
  rewrite (out_edges_rel _ _ v H). destruct (out_edges g v) as [|[[u cand] l] [|e2 oe]]; try (apply IH; assumption).
  rewrite (in_edges_rel _ _ cand H). destruct (negb (cand =? v_end) && (length (in_edges g cand) =? 1)); [|apply IH; assumption].
  apply (rres_bind grel); [apply absorb_rel; assumption|]. intros g1 g1' H1. apply IH. assumption.
Qed.
Lemma join_rel : forall cc g g', grel g g' -> rres grel (join cc g) (join cc g').
Proof.
  intros cc g g' H. unfold join. rewrite (out_edges_rel _ _ v_start H). replace (join_fuel g') with (join_fuel g); [apply join_loop_rel; assumption|].
  unfold join_fuel. rewrite (drel_length vrel _ _ (gr_verts _ _ H)), (gr_edges _ _ H). reflexivity.
Qed.

Definition colrel (x x' : column) : Prop := drel plike (c_cells x) (c_cells x') /\ c_variant x' = c_variant x.
Definition orel {A B} (R : A -> B -> Prop) (x : option A) (y : option B) : Prop :=
  match x, y with Some a, Some b => R a b | None, None => True | _, _ => False end.
Lemma put_tokens_rel : forall ts ts', drel plike ts ts' -> forall d d', drel plike d d' -> drel plike (put_tokens d ts) (put_tokens d' ts').
Proof.
  unfold put_tokens. intros ts ts' H. induction H as [|[k l] [k' l'] ts ts' [E P] H IH]; intros d d' HD; cbn [fold_left]; [assumption|].
  cbn [fst snd] in *. subst k'. apply IH. apply dset_rel; assumption.
Qed.
Lemma column_step_rel : forall g g' n k col col' v, grel g g' -> orel colrel col col' ->
  rres (orel colrel) (column_step g n k col v) (column_step g' n k col' v).
Proof.
  intros g g' n k col col' v H HC. unfold column_step. destruct ((v =? v_start) || (v =? v_end)); [exact HC|].
  apply (rres_bind vrel); [apply get_rel; assumption|]. intros x x' HX. cbn.
  assert (P : drel plike (put_tokens match col with Some c => c_cells c | None => [] end (v_tokens x))
                         (put_tokens match col' with Some c => c_cells c | None => [] end (v_tokens x'))).
  { apply put_tokens_rel; [assumption|]. destruct col, col'; cbn in HC; try contradiction; [apply HC|constructor]. }
  split; cbn [c_cells c_variant]; [assumption|]. rewrite (drel_length plike _ _ P). reflexivity.
Qed.
Lemma construct_columns_rel : forall g g' n br, grel g g' -> rres (Forall2 colrel) (construct_columns g n br) (construct_columns g' n br).
Proof.
  intros g g' n br H. unfold construct_columns. apply foldM_rel_same; [constructor|]. intros s s' [k vs] HS.
  apply (rres_bind (orel colrel)).
  - unfold rank_column. apply foldM_rel_same; [exact I|]. intros. apply column_step_rel; assumption.
  - intros [c|] [c'|] HC; cbn in HC; try contradiction; cbn; [|assumption]. apply Forall2_app; [assumption|]. constructor; [assumption|constructor].
Qed.
Lemma construct_table_rel : forall sigla g g' r t t', grel g g' -> construct_table sigla g r = Ok t -> construct_table sigla g' r = Ok t' -> same_layout t t'.
Proof.
  intros sigla g g' r t t' H T T'. unfold construct_table in *. pose proof (construct_columns_rel g g' (length sigla) (by_rank r) H) as C.
  destruct (construct_columns g (length sigla) (by_rank r)) as [cols|]; [|discriminate].
  destruct (construct_columns g' (length sigla) (by_rank r)) as [cols'|]; [|discriminate]. cbn in C, T, T'. injection T as <-. injection T' as <-.
  split; cbn [t_columns t_rows].
  - induction C as [|x x' l l' [_ E] C IH]; [reflexivity|]. cbn [map]. congruence.
  - clear - C. induction sigla as [|sg sigla IH]; cbn [map]; [constructor|]. constructor; [|assumption]. split; [reflexivity|]. cbn [construct_row r_cells]. clear IH.
    induction C as [|x x' l l' [P _] C IHC]; cbn [map]; [constructor|]. constructor; [|apply IHC].
    pose proof (dget_rel str_eqb plike sg _ _ P) as Q. destruct (dget str_eqb sg (c_cells x)), (dget str_eqb sg (c_cells x')); exact Q.
Qed.

(** ** Cubes with the same entries up to the words *)
Definition entry (e : option (vid * token)) : option (vid * nat) := option_map (fun e => (fst e, tk_pos (snd e))) e.
Section Ext.
  Variables (m1 m2 : cube) (rows : nat).
  Hypothesis E : forall y x, (y < Z.of_nat rows)%Z -> entry (dget coord_eqb (y, x) m2) = entry (dget coord_eqb (y, x) m1).

  Lemma has_match_like : forall y x, (y < Z.of_nat rows)%Z -> has_match m1 y x = has_match m2 y x.
  Proof.
    intros y x L. unfold has_match, dmem. specialize (E y x L). destruct (dget coord_eqb (y, x) m1), (dget coord_eqb (y, x) m2); cbn in E; try discriminate; reflexivity.
  Qed.
  Lemma fill_cells_like : forall y, y <= rows -> forall ups x ul left, fill_cells m1 y x ul left ups = fill_cells m2 y x ul left ups.
  Proof.
    intros y L. induction ups as [|up ups IH]; intros x ul left; [reflexivity|]. cbn [fill_cells].
    assert (Q1 : sc_score m1 x y ul = sc_score m2 x y ul) by (unfold sc_score; rewrite has_match_like by lia; reflexivity).
    assert (Q2 : from_upper m1 x y up = from_upper m2 x y up).
    { unfold from_upper, sc_score. rewrite !has_match_like by lia. reflexivity. }
    rewrite Q1, Q2, IH. reflexivity.
  Qed.
  Lemma more_rows_like : forall n y prev, y + n <= S rows -> more_rows m1 y n prev = more_rows m2 y n prev.
  Proof.
    induction n as [|n IH]; intros y prev L; [reflexivity|]. cbn [more_rows].
    assert (Q : next_row m1 y prev = next_row m2 y prev).
    { unfold next_row. destruct prev as [|p0 ps]; [reflexivity|]. rewrite fill_cells_like by lia. reflexivity. }
    rewrite Q, IH by lia. reflexivity.
  Qed.
  Lemma fill_table_like : forall cols, fill_table m1 cols rows = fill_table m2 cols rows.
  Proof. intros. unfold fill_table. rewrite more_rows_like by lia. reflexivity. Qed.
  Lemma align_like : forall cols, 1 <= cols ->
    align_matching_tokens m1 (fill_table m1 cols rows) = align_matching_tokens m2 (fill_table m2 cols rows).
  Proof.
    intros cols C. rewrite <- fill_table_like. unfold align_matching_tokens.
    destruct (aget (fill_table m1 cols rows) 0) as [row0|] eqn:R; [|reflexivity]. cbn [bind].
    apply aget_ok in R. pose proof (fill_row_length m1 cols rows C 0 row0 R) as L.
    destruct (score_iter_trace m1 cols rows C (length row0 - 1 + (length (fill_table m1 cols rows) - 1)) (length row0 - 1) (length (fill_table m1 cols rows) - 1))
      as [l [P T]]; try (rewrite (fill_table_rows m1 cols rows)); try lia.
    rewrite (fill_table_rows m1 cols rows) in *. rewrite P. cbn [bind].
    assert (B : forall s, In s l -> s_y s <= rows).
    { intros s Hs. pose proof (trace_bound m1 cols rows C _ _ _ T s Hs). lia. }
    clear P T. generalize ([] : list (nat * vid), [] : list vid).
    assert (G : forall l st, (forall s, In s l -> s_y s <= rows) -> foldM (align_step m1) l st = foldM (align_step m2) l st).
    { clear - E. induction l as [|s l IH]; intros st B; [reflexivity|]. cbn [foldM].
      assert (Q : align_step m1 st s = align_step m2 st s).
      { unfold align_step, get_match, dgetE. destruct st as [al used]. destruct (s_type s); try reflexivity.
        assert (K : (Z.of_nat (s_y s) - 1 < Z.of_nat rows)%Z) by (pose proof (B s (or_introl eq_refl)); lia).
        specialize (E _ (Z.of_nat (s_x s) - 1)%Z K).
        destruct (dget coord_eqb _ m1) as [[v t]|], (dget coord_eqb _ m2) as [[v' t']|]; cbn in E; try discriminate; [|reflexivity].
        injection E as E1 E2. cbn [bind]. rewrite E1, E2. reflexivity. }
      rewrite Q. destruct (align_step m2 st s); cbn [bind]; [|reflexivity]. apply IH. intros; apply B; right; assumption. }
    intros st. rewrite (G l st B). reflexivity.
  Qed.
End Ext.

(** ** One step *)
Lemma at_vertex_rel : forall g g' W W', grel g g' -> graph_of g W -> graph_of g' W' -> (forall wp v ts, In wp W' -> In (v, ts) (snd wp) -> exists t, ts = [t]) ->
  forall p v, at_vertex W p v -> at_vertex W' p v.
Proof.
  intros g g' W W' HR G1 G2 SI p v [wp [t [A [B C]]]]. destruct (gi_on _ _ G1 wp v [t] A B) as [Hv _].
  destruct (dget_Some_key _ nat_eqb_ok _ _ Hv) as [vx D].
  assert (I : In (fst wp, [t]) (tokens_on W v)).
  { apply tokens_on_In. exists wp. split; [assumption|]. split; [reflexivity|].
    pose proof (gi_simple _ _ G1 wp A) as ND. unfold chain in ND. inversion ND as [|? ? _ ND2]; subst. apply NoDup_app_iff in ND2 as [ND2 _].
    apply (In_dget _ nat_eqb_ok v [t] (snd wp) ND2 B). }
  rewrite <- (gi_tokens _ _ G1 v vx D) in I.
  pose proof (dget_rel Nat.eqb vrel v _ _ (gr_verts _ _ HR)) as Q. rewrite D in Q.
  destruct (dget Nat.eqb v (g_verts g')) as [vx'|] eqn:D'; [|contradiction].
  assert (J : exists l, In (fst wp, l) (v_tokens vx') /\ map tk_pos l = [p]).
  { clear - I Q C. unfold vrel in Q. induction Q as [|e e' d d' [E P] Q IH]; [destruct I|]. destruct I as [->|I].
    - exists (snd e'). split; [left; cbn [fst] in E; rewrite <- E; destruct e'; reflexivity|]. unfold plike in P. rewrite P. cbn. congruence.
    - destruct (IH I) as [l [K1 K2]]. exists l. split; [right; assumption|assumption]. }
  destruct J as [l [J1 J2]]. rewrite (gi_tokens _ _ G2 v vx' D') in J1. apply tokens_on_In in J1 as [wp2 [I1 [I2 I3]]].
  apply (dget_In _ nat_eqb_ok) in I3. destruct (SI wp2 v l I1 I3) as [t' ->]. exists wp2, t'. split; [assumption|]. split; [assumption|].
  cbn in J2. congruence.
Qed.

Lemma grel_sym : forall g g', grel g g' -> grel g' g.
Proof.
  intros g g' [A B C D]. constructor; try congruence. clear - A. induction A as [|e e' d d' [E P] A IH]; constructor; [|assumption].
  split; [congruence|]. unfold vrel in *. clear - P. induction P as [|x x' l l' [E P'] P IH]; constructor; [|assumption].
  split; [congruence|]. unfold plike in *. congruence.
Qed.

(** The prepared witnesses of two collations with the same pattern. *)
Definition wlike (iw iw' : iwitness) : Prop := iw_sigil iw' = iw_sigil iw /\ plike (iw_toks iw) (iw_toks iw').
Definition of_wits (ws : list iwitness) (a : token) : Prop := exists iw, In iw ws /\ In a (iw_toks iw).
Definition pattern (ws ws' : list iwitness) : Prop :=
  Forall2 wlike ws ws' /\
  forall a b a' b', of_wits ws a -> of_wits ws b -> of_wits ws' a' -> of_wits ws' b' -> tk_pos a' = tk_pos a -> tk_pos b' = tk_pos b ->
    (tk_str a' = tk_str b' <-> tk_str a = tk_str b).

Lemma wlike_tok : forall ws ws' a, Forall2 wlike ws ws' -> of_wits ws a -> exists a', of_wits ws' a' /\ tk_pos a' = tk_pos a.
Proof.
  intros ws ws' a F [iw [H1 H2]]. induction F as [|w w' ws ws' [_ P] F IH]; [destruct H1|]. destruct H1 as [->|H1].
  - unfold plike in P. apply (in_map tk_pos) in H2. rewrite <- P in H2. apply in_map_iff in H2 as [a' [E H2]]. exists a'. split; [|assumption].
    exists w'. split; [left; reflexivity|assumption].
  - destruct (IH H1) as [a' [[iw' [Q1 Q2]] E]]. exists a'. split; [|assumption]. exists iw'. split; [right|]; assumption.
Qed.
Lemma wlike_sym : forall ws ws', Forall2 wlike ws ws' -> Forall2 wlike ws' ws.
Proof. intros ws ws' F. induction F as [|w w' ws ws' [E P] F IH]; constructor; [|assumption]. unfold wlike, plike in *. split; congruence. Qed.
Lemma pattern_sym : forall ws ws', pattern ws ws' -> pattern ws' ws.
Proof. intros ws ws' [A B]. split; [apply wlike_sym; assumption|]. intros a b a' b' H1 H2 H3 H4 E1 E2. symmetry. apply B; auto. Qed.

Section Two.
  Variables (c1 c2 : collation) (ti1 ti2 : tindex).
  Hypothesis IX1 : index_ok c1 ti1.
  Hypothesis IX2 : index_ok c2 ti2.
  Hypothesis TX1 : index_text_ok ti1.
  Hypothesis TX2 : index_text_ok ti2.
  Hypothesis PT : pattern (ti_wits ti1) (ti_wits ti2).
  Variables (done1 done2 rest1 rest2 : list iwitness) (iw1 iw2 : iwitness) (st1 st2 : astate) (W1 W2 : list wpath)
    (rk1 rk2 : nat -> nat) (mm1 mm2 : nat) (l1 l2 : list nat) (start : nat) (m1 m2 : cube).
  Hypothesis D1 : ti_wits ti1 = done1 ++ iw1 :: rest1.
  Hypothesis D2 : ti_wits ti2 = done2 ++ iw2 :: rest2.
  Hypothesis LD : length done2 = length done1.
  Hypothesis WL : wlike iw1 iw2.
  Hypothesis A1 : al_inv None ti1 done1 st1 W1.
  Hypothesis A2 : al_inv None ti2 done2 st2 W2.
  Hypothesis GR : grel (a_graph st1) (a_graph st2).
  Hypothesis RO1 : rank_ok (a_graph st1) rk1 mm1 l1.
  Hypothesis RO2 : rank_ok (a_graph st2) rk2 mm2 l2.
  Hypothesis ER : forall v, In v (vertices (a_graph st1)) -> rk1 v = rk2 v.
  Hypothesis H1 : start_token_position ti1 (iw_sigil iw1) = Ok start.
  Hypothesis H2 : start_token_position ti2 (iw_sigil iw2) = Ok start.
  Hypothesis HP1 : map tk_pos (iw_toks iw1) = seq start (length (iw_toks iw1)).
  Hypothesis HP2 : map tk_pos (iw_toks iw2) = seq start (length (iw_toks iw2)).
  Hypothesis M1 : match_cube ti1 (iw_sigil iw1) (a_varr st1) (by_vertex (ranking_for rk1 mm1 l1)) None = Ok m1.
  Hypothesis M2 : match_cube ti2 (iw_sigil iw2) (a_varr st2) (by_vertex (ranking_for rk2 mm2 l2)) None = Ok m2.

  Let K1 : nth_error (ti_wits ti1) (length done1) = Some iw1.
  Proof. rewrite D1, nth_error_app2, Nat.sub_diag by lia. reflexivity. Qed.
  Let K2 : nth_error (ti_wits ti2) (length done2) = Some iw2.
  Proof. rewrite D2, nth_error_app2, Nat.sub_diag by lia. reflexivity. Qed.

  Lemma same_count : length (iw_toks iw2) = length (iw_toks iw1).
  Proof. destruct WL as [_ P]. unfold plike in P. rewrite <- (map_length tk_pos), P. apply map_length. Qed.

  (** What an entry of the first cube says about the second collation. *)
  Lemma entry_facts : forall n x v t, n < length (iw_toks iw1) -> dget coord_eqb (Z.of_nat n, x) m1 = Some (v, t) ->
    nth_error (iw_toks iw1) n = Some t /\ In v (vertices (a_graph st1)) /\ x = (Z.of_nat (rk1 v) - 1)%Z /\
    exists wp u p, In wp W1 /\ In (v, [u]) (snd wp) /\ tk_pos u = p /\ of_wits (ti_wits ti1) u /\ tk_str u = tk_str t /\
      p < start /\ at_vertex W1 p v.
  Proof.
    intros n x v t Ln E.
    destruct (cube_facts c1 ti1 None IX1 TX1 done1 iw1 rest1 st1 W1 rk1 mm1 l1 start m1 D1 A1 RO1 H1 HP1 M1 n x v t E Ln) as [F1 [F2 [F3 [F4 [F5 F6]]]]].
    split; [assumption|]. split; [assumption|]. split; [assumption|].
    destruct F6 as [p [t1 [P1 [P2 [P3 [P4 _]]]]]]. pose proof P1 as P0. destruct P1 as [wp [u [Q1 [Q2 Q3]]]].
    destruct (Forall2_In_r _ _ _ _ (al_paths _ _ _ _ _ A1) Q1) as [iw' [B1 B2]].
    assert (Hu : In u (iw_toks iw')).
    { destruct B2 as [_ [path [_ B4]]]. rewrite B4 in Q2. destruct (steps_single _ _ _ _ Q2) as [u' [B5 B6]]. congruence. }
    assert (J1 : In iw' (ti_wits ti1)) by (rewrite D1; apply in_or_app; left; assumption).
    pose proof (ix_nth c1 ti1 IX1 iw' u J1 Hu) as N1. rewrite Q3 in N1. assert (t1 = u) by congruence. subst t1.
    assert (Lp : p < start).
    { apply In_nth_error in B1 as [k2 B1]. assert (L2 : k2 < length done1) by (apply nth_error_Some; congruence).
      assert (B3 : nth_error (ti_wits ti1) k2 = Some iw') by (rewrite D1, nth_error_app1 by assumption; assumption).
      pose proof (tok_range c1 ti1 IX1 k2 iw' u B3 Hu) as R. rewrite (start_pos c1 ti1 IX1 _ _ _ K1 H1).
      assert (length done1 <= length c1) by (rewrite <- (wits_length c1 ti1 IX1), D1, app_length; lia).
      pose proof (start_of_le c1 (S k2) (length done1)). lia. }
    exists wp, u, p. split; [assumption|]. split; [assumption|]. split; [assumption|].
    split; [exists iw'; auto|]. split; [assumption|]. split; assumption.
  Qed.

  Lemma tok_of : forall n t, nth_error (iw_toks iw1) n = Some t -> of_wits (ti_wits ti1) t /\ tk_pos t = start + n.
  Proof.
    intros n t Ht. split.
    - exists iw1. split; [rewrite D1; apply in_or_app; right; left; reflexivity|]. apply nth_error_In in Ht. assumption.
    - pose proof (f_equal (fun l => nth_error l n) HP1) as Q. cbv beta in Q. rewrite nth_error_map, Ht in Q. cbn in Q.
      assert (n < length (iw_toks iw1)) by (apply nth_error_Some; congruence). rewrite (nth_error_nth' _ 0) in Q by (rewrite seq_length; lia).
      rewrite seq_nth in Q by lia. congruence.
  Qed.

  Lemma entry_there : forall n x v t, n < length (iw_toks iw1) -> dget coord_eqb (Z.of_nat n, x) m1 = Some (v, t) ->
    exists v2 t2, dget coord_eqb (Z.of_nat n, x) m2 = Some (v2, t2).
  Proof.
    intros n x v t Ln E. destruct (entry_facts n x v t Ln E) as [F1 [F2 [F5 [wp [u [p [Q1 [Q2 [Q3 [Q4 [Q5 [Lp AV]]]]]]]]]]]].
    destruct (wlike_tok _ _ u (proj1 PT) Q4) as [u2 [U1 U2]].
    assert (T2 : exists t2, nth_error (iw_toks iw2) n = Some t2) by (apply nth_error_lt_ex; rewrite same_count; assumption).
    destruct T2 as [t2 T2]. pose proof (tok_of n t F1) as [O1 O2].
    assert (I2 : In iw2 (ti_wits ti2)) by (eapply nth_error_In; eassumption).
    destruct (ix_tok_nth c2 ti2 IX2 iw2 start n I2 HP2) as [t2' [X1 [X2 X3]]]; [rewrite same_count; assumption|].
    assert (t2' = t2) by congruence. subst t2'.
    assert (OT2 : of_wits (ti_wits ti2) t2) by (exists iw2; split; [assumption|eapply nth_error_In; eassumption]).
    assert (ES : tk_str u2 = tk_str t2) by (apply (proj2 PT u t u2 t2); auto; congruence).
    destruct U1 as [iw' [J1 J2]]. pose proof (ix_nth c2 ti2 IX2 iw' u2 J1 J2) as N2. rewrite U2, Q3 in N2.
    assert (V2 : nth_error (a_varr st2) p = Some (Some v)).
    { apply (al_varr _ _ _ _ _ A2). apply (at_vertex_rel _ _ W1 W2 GR (al_graph _ _ _ _ _ A1) (al_graph _ _ _ _ _ A2)); [|assumption].
      intros wp2 v2 ts I3 I4. apply (path_single _ _ wp2 v2 ts (al_paths _ _ _ _ _ A2) I3 I4). }
    assert (F2' : In v (vertices (a_graph st2))) by (rewrite (grel_vertices _ _ GR); assumption).
    pose proof (by_vertex_get _ _ _ _ v RO2 F2') as BV. rewrite <- (ER v F2) in BV.
    pose proof (cube_complete c2 ti2 IX2 TX2 start (a_varr st2) _ None (length done2) iw2 K2 H2 m2 eq_refl M2 p (start + n) v (rk1 v) u2 t2 Lp V2 BV N2 X3
      (nth_error_In _ _ T2) ES) as C.
    replace (Z.of_nat (start + n) - Z.of_nat start)%Z with (Z.of_nat n) in C by lia. rewrite <- F5 in C. unfold dmem in C.
    destruct (dget coord_eqb (Z.of_nat n, x) m2) as [[v2 t2']|]; [|discriminate]. eauto.
  Qed.
End Two.

Lemma entry_same : forall c1 c2 ti1 ti2 done1 done2 rest1 rest2 iw1 iw2 st1 st2 W1 W2 rk1 rk2 mm1 mm2 l1 l2 start m1 m2,
  index_ok c1 ti1 -> index_ok c2 ti2 -> index_text_ok ti1 -> index_text_ok ti2 -> pattern (ti_wits ti1) (ti_wits ti2) ->
  ti_wits ti1 = done1 ++ iw1 :: rest1 -> ti_wits ti2 = done2 ++ iw2 :: rest2 -> length done2 = length done1 -> wlike iw1 iw2 ->
  al_inv None ti1 done1 st1 W1 -> al_inv None ti2 done2 st2 W2 -> grel (a_graph st1) (a_graph st2) ->
  rank_ok (a_graph st1) rk1 mm1 l1 -> rank_ok (a_graph st2) rk2 mm2 l2 -> (forall v, In v (vertices (a_graph st1)) -> rk1 v = rk2 v) ->
  start_token_position ti1 (iw_sigil iw1) = Ok start -> start_token_position ti2 (iw_sigil iw2) = Ok start ->
  map tk_pos (iw_toks iw1) = seq start (length (iw_toks iw1)) -> map tk_pos (iw_toks iw2) = seq start (length (iw_toks iw2)) ->
  match_cube ti1 (iw_sigil iw1) (a_varr st1) (by_vertex (ranking_for rk1 mm1 l1)) None = Ok m1 ->
  match_cube ti2 (iw_sigil iw2) (a_varr st2) (by_vertex (ranking_for rk2 mm2 l2)) None = Ok m2 ->
  longest_from_start (a_graph st1) rk1 -> unambiguous (a_graph st1) ->
  forall y x, (y < Z.of_nat (length (iw_toks iw1)))%Z -> entry (dget coord_eqb (y, x) m2) = entry (dget coord_eqb (y, x) m1).
Proof.
  intros c1 c2 ti1 ti2 done1 done2 rest1 rest2 iw1 iw2 st1 st2 W1 W2 rk1 rk2 mm1 mm2 l1 l2 start m1 m2
    IX1 IX2 TX1 TX2 PT D1 D2 LD WL A1 A2 GR RO1 RO2 ER H1 H2 HP1 HP2 M1 M2 LG UN y x Ly.
  assert (K1 : nth_error (ti_wits ti1) (length done1) = Some iw1) by (rewrite D1, nth_error_app2, Nat.sub_diag by lia; reflexivity).
  assert (K2 : nth_error (ti_wits ti2) (length done2) = Some iw2) by (rewrite D2, nth_error_app2, Nat.sub_diag by lia; reflexivity).
  assert (WL' : wlike iw2 iw1) by (destruct WL as [Q1 Q2]; split; [congruence|unfold plike in *; congruence]).
  assert (EL : length (iw_toks iw2) = length (iw_toks iw1)) by (apply (same_count iw1 iw2 WL)).
  assert (ER' : forall v, In v (vertices (a_graph st2)) -> rk2 v = rk1 v).
  { intros v Hv. symmetry. apply ER. rewrite <- (grel_vertices _ _ GR). assumption. }
  destruct (dget coord_eqb (y, x) m1) as [[v t]|] eqn:E1.
  - pose proof (cube_rows c1 ti1 None IX1 _ iw1 start _ _ m1 K1 H1 M1 _ _ E1) as Y0. cbn [fst] in Y0.
    assert (EY : y = Z.of_nat (Z.to_nat y)) by lia. set (n := Z.to_nat y) in *. rewrite EY in *. assert (Ln : n < length (iw_toks iw1)) by lia.
    destruct (entry_there c1 c2 ti1 ti2 IX1 IX2 TX1 TX2 PT done1 done2 rest1 rest2 iw1 iw2 st1 st2 W1 W2 rk1 rk2 mm1 mm2 l1 l2 start m1 m2
      D1 D2 LD WL A1 A2 GR RO1 RO2 ER H1 H2 HP1 HP2 M1 M2 n x v t Ln E1) as [v2 [t2 E2]].
    rewrite E2. cbn [entry option_map fst snd]. f_equal.
    destruct (entry_facts c1 ti1 IX1 TX1 done1 done2 rest1 iw1 st1 W1 rk1 mm1 l1 start m1 D1 LD A1 RO1 H1 HP1 M1 n x v t Ln E1)
      as [F1 [F2 [F5 [wp [u [p [Q1 [Q2 [Q3 [Q4 [Q5 [Lp AV]]]]]]]]]]]].
    assert (Ln2 : n < length (iw_toks iw2)) by lia.
    destruct (entry_facts c2 ti2 IX2 TX2 done2 done1 rest2 iw2 st2 W2 rk2 mm2 l2 start m2 D2 (eq_sym LD) A2 RO2 H2 HP2 M2 n x v2 t2 Ln2 E2)
      as [G1 [G2 [G5 [wp2 [u2 [p2 [R1 [R2 [R3 [R4 [R5 [Lp2 AV2]]]]]]]]]]]].
    destruct (tok_of ti1 done1 done2 rest1 iw1 start D1 LD HP1 n t F1) as [O1 O2].
    destruct (tok_of ti2 done2 done1 rest2 iw2 start D2 (eq_sym LD) HP2 n t2 G1) as [O3 O4].
    f_equal; [|lia].
    (* the token of the first collation at p2 *)
    assert (AV1 : at_vertex W1 p2 v2).
    { apply (at_vertex_rel _ _ W2 W1 (grel_sym _ _ GR) (al_graph _ _ _ _ _ A2) (al_graph _ _ _ _ _ A1)); [|assumption].
      intros wp3 v3 ts I3 I4. apply (path_single _ _ wp3 v3 ts (al_paths _ _ _ _ _ A1) I3 I4). }
    destruct AV1 as [wp3 [u3 [S1 [S2 S3]]]].
    destruct (Forall2_In_r _ _ _ _ (al_paths _ _ _ _ _ A1) S1) as [iw' [B1 B2]].
    assert (Hu : In u3 (iw_toks iw')).
    { destruct B2 as [_ [path [_ B4]]]. rewrite B4 in S2. destruct (steps_single _ _ _ _ S2) as [u' [B5 B6]]. congruence. }
    assert (O5 : of_wits (ti_wits ti1) u3) by (exists iw'; split; [rewrite D1; apply in_or_app; left; assumption|assumption]).
    assert (ES : tk_str u3 = tk_str t) by (apply (proj2 PT u3 t u2 t2); auto; congruence).
    destruct (al_label _ _ _ _ _ A1 wp v u Q1 Q2) as [vx [X1 X2]].
    destruct (al_label _ _ _ _ _ A1 wp3 v2 u3 S1 S2) as [vx' [X3 X4]].
    apply (UN rk1 v2 v vx' vx LG X3 X1); [|congruence].
    rewrite ER' in G5 by assumption.
    lia.
  - destruct (dget coord_eqb (y, x) m2) as [[v2 t2]|] eqn:E2; [|reflexivity]. exfalso.
    pose proof (cube_rows c2 ti2 None IX2 _ iw2 start _ _ m2 K2 H2 M2 _ _ E2) as Y0. cbn [fst] in Y0.
    assert (EY : y = Z.of_nat (Z.to_nat y)) by lia. set (n := Z.to_nat y) in *. rewrite EY in *. assert (Ln : n < length (iw_toks iw2)) by lia.
    destruct (entry_there c2 c1 ti2 ti1 IX2 IX1 TX2 TX1 (pattern_sym _ _ PT) done2 done1 rest2 rest1 iw2 iw1 st2 st1 W2 W1 rk2 rk1 mm2 mm1 l2 l1 start m2 m1
      D2 D1 (eq_sym LD) WL' A2 A1 (grel_sym _ _ GR) RO2 RO1 ER' H2 H1 HP2 HP1 M2 M1 n x v2 t2 Ln E2) as [v [t E3]].
    congruence.
Qed.

Lemma step_rel : forall topo c1 c2 ti1 ti2 done1 done2 rest1 rest2 iw1 iw2 st1 st2 W1 W2 st1' st2', topo_ok topo -> structural topo ->
  index_ok c1 ti1 -> index_ok c2 ti2 -> index_text_ok ti1 -> index_text_ok ti2 -> ~ In [] (map w_sigil c1) -> ~ In [] (map w_sigil c2) ->
  pattern (ti_wits ti1) (ti_wits ti2) ->
  ti_wits ti1 = done1 ++ iw1 :: rest1 -> ti_wits ti2 = done2 ++ iw2 :: rest2 -> length done2 = length done1 -> wlike iw1 iw2 ->
  W1 <> [] -> W2 <> [] -> al_inv None ti1 done1 st1 W1 -> al_inv None ti2 done2 st2 W2 -> grel (a_graph st1) (a_graph st2) -> unambiguous (a_graph st1) ->
  next_step topo None false ti1 st1 iw1 = Ok st1' -> next_step topo None false ti2 st2 iw2 = Ok st2' ->
  grel (a_graph st1') (a_graph st2').
Proof.
  intros topo c1 c2 ti1 ti2 done1 done2 rest1 rest2 iw1 iw2 st1 st2 W1 W2 st1' st2' TO TS IX1 IX2 TX1 TX2 SG1 SG2 PT D1 D2 LD WL NW1 NW2 A1 A2 GR UN S1 S2.
  destruct (next_step_inv c1 ti1 None IX1 TX1 SG1 topo TO done1 iw1 rest1 st1 W1 D1 NW1 A1) as [rk [mm [l [start [RK [RO [Hs [HP N]]]]]]]].
  destruct (next_step_inv c2 ti2 None IX2 TX2 SG2 topo TO done2 iw2 rest2 st2 W2 D2 NW2 A2) as [rk2 [mm2 [l2 [start2 [RK2 [RO2 [Hs2 [HP2 N2]]]]]]]].
  destruct (next_step_cube ti1 None topo st1 iw1 st1' _ RK S1) as [m1 Hm1]. destruct (N m1 Hm1) as [al1 [AL1 [st1b [N1 I1]]]].
  rewrite S1 in N1. injection N1 as <-.
  destruct (next_step_cube ti2 None topo st2 iw2 st2' _ RK2 S2) as [m2 Hm2]. destruct (N2 m2 Hm2) as [al2 [AL2 [st2b [N3 I2]]]].
  rewrite S2 in N3. injection N3 as <-.
  pose proof (next_step_merge _ _ _ _ _ _ _ _ _ _ _ RK RO Hm1 AL1 S1) as [new1 G1].
  pose proof (next_step_merge _ _ _ _ _ _ _ _ _ _ _ RK2 RO2 Hm2 AL2 S2) as [new2 G2].
  pose proof (same_count _ _ WL) as EL.
  assert (ES : start2 = start).
  { destruct (ix_start c1 ti1 IX1 iw1) as [s [_ [_ NE]]]; [rewrite D1; apply in_or_app; right; left; reflexivity|].
    destruct WL as [_ P]. unfold plike in P. rewrite HP, HP2, EL in P. destruct (iw_toks iw1); [congruence|]. cbn [length seq] in P. congruence. }
  subst start2.
  pose proof (al_graph _ _ _ _ _ A1) as GI. pose proof (longest _ _ _ _ _ GI RO NW1) as LG.
  rewrite (ranking_rel _ _ _ TS GR), RK in RK2. assert (ERK : ranking_for rk mm l = ranking_for rk2 mm2 l2) by congruence.
  pose proof (grel_vertices _ _ GR) as EV.
  assert (ER : forall v, In v (vertices (a_graph st1)) -> rk v = rk2 v).
  { intros v Hv. pose proof (by_vertex_get _ _ _ _ v RO Hv) as B1. assert (Hv2 : In v (vertices (a_graph st2))) by (rewrite EV; assumption).
    pose proof (by_vertex_get _ _ _ _ v RO2 Hv2) as B2. rewrite ERK in B1. congruence. }
  assert (EM : mm2 = mm).
  { rewrite <- (rank_count _ _ _ _ RO), <- (rank_count _ _ _ _ RO2), EV. f_equal. f_equal. apply map_ext_in. intros v Hv. symmetry. apply ER. assumption. }
  pose proof (entry_same c1 c2 ti1 ti2 done1 done2 rest1 rest2 iw1 iw2 st1 st2 W1 W2 rk rk2 mm mm2 l l2 start m1 m2 IX1 IX2 TX1 TX2 PT D1 D2 LD WL A1 A2 GR
    RO RO2 ER Hs Hs2 HP HP2 Hm1 Hm2 LG UN) as EQ.
  subst mm2.
  assert (CP : 1 <= mm - 1) by (exact (cols_pos _ _ _ _ _ GI RO NW1)).
  rewrite (align_like m1 m2 _ EQ _ CP) in AL1. rewrite EL, AL1 in AL2. injection AL2 as <-.
  pose proof (merge_rel (iw_sigil iw1) al1 _ _ _ _ (proj2 WL) GR) as MR. rewrite (proj1 WL) in G2. rewrite G1, G2 in MR. exact (proj1 MR).
Qed.

(** ** The stages *)
Lemma stamp_ge : forall sg ts pos t, In t (stamp sg pos ts) -> pos <= tk_pos t.
Proof. induction ts as [|x ts IH]; intros pos t H; [destruct H|]. cbn [stamp] in H. destruct H as [<-|H]; [cbn; lia|]. apply IH in H. lia. Qed.
Lemma stamped_ge : forall c pos iw t, In iw (stamped pos c) -> In t (iw_toks iw) -> pos <= tk_pos t.
Proof.
  induction c as [|w c IH]; intros pos iw t H1 H2; [destruct H1|]. cbn [stamped] in H1. destruct H1 as [<-|H1].
  - apply stamp_ge in H2. assumption.
  - apply (IH _ _ _ H1) in H2. lia.
Qed.
Lemma stamp_pair : forall sg ts ts' pos a a', length ts' = length ts -> In a (stamp sg pos ts) -> In a' (stamp sg pos ts') -> tk_pos a' = tk_pos a ->
  exists b b', In (b, b') (combine ts ts') /\ t0_str b = tk_str a /\ t0_str b' = tk_str a'.
Proof.
  induction ts as [|x ts IH]; intros ts' pos a a' L H1 H2 E; [destruct H1|]. destruct ts' as [|x' ts']; [discriminate|]. cbn [stamp combine] in *.
  destruct H1 as [<-|H1], H2 as [<-|H2].
  - exists x, x'. split; [left; reflexivity|]. split; reflexivity.
  - apply stamp_ge in H2. cbn in E. lia.
  - apply stamp_ge in H1. cbn in E. lia.
  - destruct (IH ts' (pos + 1) a a') as [b [b' [Q1 Q2]]]; auto. exists b, b'. split; [right; assumption|assumption].
Qed.
Lemma combine_app : forall A B (a1 a2 : list A) (b1 b2 : list B), length b1 = length a1 -> combine (a1 ++ a2) (b1 ++ b2) = combine a1 b1 ++ combine a2 b2.
Proof. induction a1 as [|x a1 IH]; intros a2 b1 b2 L; destruct b1 as [|y b1]; try discriminate; [reflexivity|]. cbn. f_equal. apply IH. cbn in L. lia. Qed.
Lemma stamped_pair : forall c c', Forall2 (fun w w' => w_sigil w' = w_sigil w /\ length (w_toks w') = length (w_toks w)) c c' ->
  forall pos a a', of_wits (stamped pos c) a -> of_wits (stamped pos c') a' -> tk_pos a' = tk_pos a ->
  exists b b', In (b, b') (counterparts c c') /\ t0_str b = tk_str a /\ t0_str b' = tk_str a'.
Proof.
  intros c c' F. unfold counterparts. induction F as [|w w' c c' [E1 E2] F IH]; intros pos a a' [iw [H1 H2]] [iw' [H3 H4]] E; [destruct H1|].
  cbn [stamped flat_map] in *. rewrite combine_app by assumption. rewrite E2 in H3.
  destruct H1 as [<-|H1], H3 as [<-|H3]; cbn [iw_toks] in *.
  - rewrite E1 in H4. destruct (stamp_pair _ _ _ _ _ _ E2 H2 H4 E) as [b [b' [Q1 Q2]]]. exists b, b'. split; [apply in_or_app; left; assumption|assumption].
  - apply stamp_pos_lt in H2. apply (stamped_ge _ _ _ _ H3) in H4. lia.
  - apply stamp_pos_lt in H4. rewrite E2 in H4. apply (stamped_ge _ _ _ _ H1) in H2. lia.
  - destruct (IH _ a a' (ex_intro _ iw (conj H1 H2)) (ex_intro _ iw' (conj H3 H4)) E) as [b [b' [Q1 Q2]]].
    exists b, b'. split; [apply in_or_app; right; assumption|assumption].
Qed.
Lemma stamp_plike : forall sg sg' ts ts' pos, length ts' = length ts -> plike (stamp sg pos ts) (stamp sg' pos ts').
Proof.
  induction ts as [|x ts IH]; intros ts' pos L; destruct ts' as [|x' ts']; try discriminate; [reflexivity|]. unfold plike in *. cbn [stamp map tk_pos].
  f_equal. apply IH. cbn in L. lia.
Qed.
Lemma pattern_stamped : forall c c', same_pattern c c' -> pattern (stamped 0 c) (stamped 0 c').
Proof.
  intros c c' [F E]. split.
  - clear E. generalize 0. induction F as [|w w' c c' [E1 E2] F IH]; intros pos; [constructor|]. cbn [stamped]. constructor.
    + split; [assumption|]. apply stamp_plike. assumption.
    + rewrite E2. apply IH.
  - intros a b a' b' H1 H2 H3 H4 P1 P2.
    destruct (stamped_pair _ _ F 0 a a' H1 H3 P1) as [x [x' [Q1 [Q2 Q3]]]]. destruct (stamped_pair _ _ F 0 b b' H2 H4 P2) as [y [y' [R1 [R2 R3]]]].
    pose proof (E x x' y y' Q1 R1) as K. rewrite Q2, Q3, R2, R3 in K. exact K.
Qed.

Lemma split_at : forall A (l : list A) k x, nth_error l k = Some x -> exists r, l = firstn k l ++ x :: r.
Proof.
  intros A l k x H. apply nth_error_split in H as [l1 [l2 [Q L1]]]. exists l2. rewrite Q at 2. rewrite firstn_app, <- L1, Nat.sub_diag, firstn_all.
  cbn [firstn]. rewrite app_nil_r. exact Q.
Qed.

Theorem stages_rel : forall topo c c' k g g', topo_ok topo -> structural topo -> good_sigla c -> good_sigla c' -> same_pattern c c' -> k < length c ->
  stage topo None c k = Ok g -> stage topo None c' k = Ok g' ->
  (forall j h, j < k -> stage topo None c j = Ok h -> unambiguous h) -> grel g g'.
Proof.
  intros topo c c' k. induction k as [|k IH]; intros g1 g2 TO TS GS1 GS2 SP L H1 H2 UN.
  - pose proof (pattern_stamped _ _ SP) as PT. unfold stage in *. apply bind_ok in H1 as [ti1 [P1 H1]]. apply bind_ok in H2 as [ti2 [P2 H2]].
    pose proof (prepare_index_ok _ ti1 (proj1 GS1) P1) as IX1. pose proof (prepare_index_ok _ ti2 (proj1 GS2) P2) as IX2.
    rewrite <- (ix_wits _ _ IX1), <- (ix_wits _ _ IX2) in PT. destruct PT as [PT _].
    destruct (ti_wits ti1) as [|w1 ws1]; [discriminate|]. destruct (ti_wits ti2) as [|w2 ws2]; [discriminate|]. inversion PT as [|? ? ? ? [WS WP] _]; subst.
    unfold first_step in *. cbn [firstn foldM bind] in *.
    apply bind_ok in H1 as [st1 [F1 H1]]. apply bind_ok in F1 as [[ga na] [M1 F1]]. apply bind_ok in F1 as [r1 [_ F1]]. apply bind_ok in F1 as [v1 [_ F1]].
    apply bind_ok in H2 as [st2 [F2 H2]]. apply bind_ok in F2 as [[gb nb] [M2 F2]]. apply bind_ok in F2 as [r2 [_ F2]]. apply bind_ok in F2 as [v2 [_ F2]].
    injection F1 as <-. injection F2 as <-. injection H1 as <-. injection H2 as <-. cbn [a_graph].
    pose proof (merge_rel (iw_sigil w1) [] _ _ _ _ WP grel_refl_empty) as MR. rewrite WS in M2. rewrite M1, M2 in MR. exact (proj1 MR).
  - destruct (stage_pred _ _ _ _ _ H1) as [h1 K1]. destruct (stage_pred _ _ _ _ _ H2) as [h2 K2].
    assert (EH : grel h1 h2).
    { apply (IH h1 h2); auto; [lia|]. intros j g Lj. apply UN. lia. }
    assert (U : unambiguous h1) by (apply (UN k); [lia|assumption]).
    destruct (stage_state topo None c k h1 TO GS1 K1) as [ti1 [st1 [W1 [P1 [IX1 [TX1 [NW1 [EG1 [AL1 N1]]]]]]]]].
    destruct (stage_state topo None c' k h2 TO GS2 K2) as [ti2 [st2 [W2 [P2 [IX2 [TX2 [NW2 [EG2 [AL2 N2]]]]]]]]].
    pose proof (pattern_stamped _ _ SP) as PT. rewrite <- (ix_wits _ _ IX1), <- (ix_wits _ _ IX2) in PT.
    destruct (nth_error_lt_ex (ti_wits ti1) (S k)) as [iw1 Hi1]; [rewrite (wits_length _ _ IX1); assumption|].
    pose proof (Forall2_len _ _ _ (proj1 PT)) as LW.
    assert (LL : S k < length (ti_wits ti1)) by (apply nth_error_Some; congruence).
    destruct (nth_error_lt_ex (ti_wits ti2) (S k)) as [iw2 Hi2]; [lia|].
    destruct (N1 g1 iw1 H1 Hi1) as [st1' [S1 Q1]]. destruct (N2 g2 iw2 H2 Hi2) as [st2' [S2 Q2]].
    destruct (split_at _ _ _ _ Hi1) as [r1 D1]. destruct (split_at _ _ _ _ Hi2) as [r2 D2].
    assert (WL : wlike iw1 iw2).
    { destruct PT as [F _]. clear - F Hi1 Hi2. revert Hi1 Hi2. generalize (S k). induction F as [|x y l l' R F IH]; intros n H1 H2; [destruct n; discriminate|].
      destruct n as [|n]; cbn in *; [congruence|]. apply (IH n); assumption. }
    rewrite <- Q1, <- Q2.
    apply (step_rel topo c c' ti1 ti2 (firstn (S k) (ti_wits ti1)) (firstn (S k) (ti_wits ti2)) r1 r2 iw1 iw2 st1 st2 W1 W2); auto.
    + exact (proj2 GS1).
    + exact (proj2 GS2).
    + rewrite !firstn_length. lia.
    + rewrite EG1, EG2. assumption.
    + rewrite EG1. assumption.
Qed.
