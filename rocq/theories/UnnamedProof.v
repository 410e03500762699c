(** A witness without a name: the pipeline run on both collations in step (C42). *)
From Verif Require Import Py Lib TokenModel SuffixModel IndexModel GraphModel AlignModel TableModel NearModel ExportModel
  CollateModel GraphSpec ParamSpec IndexProof ParamProof RenameSpec RenameProof UnnamedSpec.
From Coq Require Import QArith.
Open Scope list_scope.
Open Scope nat_scope.

(** ** Graphs with the same shape and related vertices *)
Record grel (R : vid -> vertex -> vertex -> Prop) (g g' : graph) : Prop := {
  ge_verts : Forall2 (fun e e' => fst e' = fst e /\ R (fst e) (snd e) (snd e')) (g_verts g) (g_verts g');
  ge_edges : map fst (g_edges g') = map fst (g_edges g);
  ge_near : g_near g' = g_near g;
  ge_next : g_next g' = g_next g;
  ge_two : 2 <= g_next g }.

Lemma grel_impl : forall (R Q : vid -> vertex -> vertex -> Prop) g g', (forall v x x', R v x x' -> Q v x x') -> grel R g g' -> grel Q g g'.
Proof.
  intros R Q g g' H [V E N X T]. constructor; try assumption. revert V. generalize (g_verts g) (g_verts g'). clear -H. induction 1 as [|a b l l' [H1 H2] F IH]; constructor; auto.
Qed.
Lemma rel_keys : forall (R : vid -> vertex -> vertex -> Prop) d d',
  Forall2 (fun e e' => fst e' = fst e /\ R (fst e) (snd e) (snd e')) d d' -> map fst d' = map fst d.
Proof. intros R d d' F. induction F as [|a b d d' [H _] F IH]; [reflexivity|]. cbn [map]. congruence. Qed.
Lemma rel_get : forall (R : vid -> vertex -> vertex -> Prop) v d d', Forall2 (fun e e' => fst e' = fst e /\ R (fst e) (snd e) (snd e')) d d' ->
  rres (R v) (dgetE Nat.eqb v d) (dgetE Nat.eqb v d').
Proof.
  intros R v d d' F. induction F as [|[k x] [k' x'] d d' [H1 H2] F IH]; [reflexivity|]. cbn [fst snd] in *. subst k'. unfold dgetE in *. cbn [dget].
  destruct (v =? k) eqn:E; [|exact IH]. apply Nat.eqb_eq in E. subst k. exact H2.
Qed.
Lemma rel_set : forall (R : vid -> vertex -> vertex -> Prop) v x x' d d', R v x x' ->
  Forall2 (fun e e' => fst e' = fst e /\ R (fst e) (snd e) (snd e')) d d' ->
  Forall2 (fun e e' => fst e' = fst e /\ R (fst e) (snd e) (snd e')) (dset Nat.eqb v x d) (dset Nat.eqb v x' d').
Proof.
  intros R v x x' d d' H F. induction F as [|[k y] [k' y'] d d' [H1 H2] F IH]; [constructor; [split; [reflexivity|exact H]|constructor]|].
  cbn [fst snd] in *. subst k'. cbn [dset]. destruct (v =? k) eqn:E.
  - apply Nat.eqb_eq in E. subst k. constructor; [split; [reflexivity|exact H]|exact F].
  - constructor; [split; [reflexivity|exact H2]|exact IH].
Qed.
Lemma grel_vertices : forall R g g', grel R g g' -> vertices g' = vertices g.
Proof. intros R g g' G. unfold vertices. apply (rel_keys R). apply (ge_verts _ _ _ G). Qed.
Lemma grel_ranking : forall R topo g g', by_shape topo -> grel R g g' -> ranking_of topo g' = ranking_of topo g.
Proof.
  intros R topo g g' TS G.
  set (h := {| g_verts := dv (vren (fun s => s)) (g_verts g); g_edges := g_edges g'; g_near := g_near g'; g_next := g_next g' |}).
  assert (GR : gren (fun s => s) g h) by (constructor; [reflexivity|apply (ge_edges _ _ _ G)|apply (ge_near _ _ _ G)|apply (ge_next _ _ _ G)]).
  rewrite <- (ranking_ren _ topo TS g h GR). unfold ranking_of. rewrite (TS h g'); [reflexivity| |reflexivity].
  unfold vertices, h. cbn [g_verts]. rewrite dv_keys. exact (grel_vertices _ _ _ G).
Qed.

Section Unnamed.
  Variable f : str -> str.
  Hypothesis Fi : forall a b, f a = f b -> a = b.

  Lemma connect_rel : forall R g g' u v l l', grel R g g' -> grel R (connect g u v l) (connect g' u v l').
  Proof.
    intros R g g' u v l l' [V E N X T]. constructor; cbn [connect g_verts g_edges g_near g_next]; try assumption.
    pose proof (dmem_fst (u, v) _ _ E) as M. unfold dmem in M.
    destruct (dget edge_eqb (u, v) (g_edges g')), (dget edge_eqb (u, v) (g_edges g)); try discriminate M.
    - apply dset_fst. exact E.
    - rewrite !map_app, E. reflexivity.
  Qed.

  (** ** Merging a witness, for any relation between vertices that tokens of this witness keep *)
  Section Step.
    Variable R : vid -> vertex -> vertex -> Prop.
    Variable sg : str.
    Hypothesis RA : forall v x x' t, R v x x' -> R v (vertex_add_token x sg t) (vertex_add_token x' (f sg) (mt f t)).
    Hypothesis RN : forall v t, 2 <= v -> R v (new_vertex t sg) (new_vertex (mt f t) (f sg)).

    Lemma add_rel : forall g g' v t, grel R g g' -> rres (grel R) (graph_add_token g v sg t) (graph_add_token g' v (f sg) (mt f t)).
    Proof.
      intros g g' v t G. unfold graph_add_token, get_vertex. eapply rres_bind; [apply (rel_get R); apply (ge_verts _ _ _ G)|].
      intros x x' Hx. cbn. destruct G as [V E N X T]. constructor; cbn [update_vertex g_verts g_edges g_near g_next]; try assumption.
      apply rel_set; [apply RA; exact Hx|exact V].
    Qed.
    Lemma merge_tokens_rel : forall ts g g' al last t2v, grel R g g' ->
      rres (fun a b => grel R (fst (fst a)) (fst (fst b)) /\ snd (fst b) = snd (fst a) /\ snd b = snd a)
        (merge_tokens g sg ts al last t2v) (merge_tokens g' (f sg) (map (mt f) ts) al last t2v).
    Proof.
      induction ts as [|t ts IH]; intros g g' al last t2v G; cbn [map merge_tokens]; [cbn; auto|]. change (tk_pos (mt f t)) with (tk_pos t).
      destruct (dget Nat.eqb (tk_pos t) al) as [v|].
      - apply (rres_bind (grel R)); [apply add_rel; exact G|]. intros a b Hab. apply IH. apply connect_rel. exact Hab.
      - assert (A : grel R (fst (add_vertex g t sg)) (fst (add_vertex g' (mt f t) (f sg))) /\ snd (add_vertex g' (mt f t) (f sg)) = snd (add_vertex g t sg)).
        { destruct G as [V E N X T]. split; [|exact X]. constructor; cbn [add_vertex fst g_verts g_edges g_near g_next]; try congruence; [|lia].
          apply Forall2_app; [exact V|]. constructor; [|constructor]. cbn [fst snd]. split; [exact X|]. apply RN. exact T. }
        destruct A as [H1 H2]. destruct (add_vertex g t sg) as [g1 v], (add_vertex g' (mt f t) (f sg)) as [g1' v'].
        cbn [fst snd] in H1, H2. subst v'. apply IH. apply connect_rel. exact H1.
    Qed.
    Lemma merge_rel : forall ts g g' al, grel R g g' ->
      rres (fun a b => grel R (fst a) (fst b) /\ snd b = snd a) (merge g sg ts al) (merge g' (f sg) (map (mt f) ts) al).
    Proof.
      intros ts g g' al G. unfold merge. eapply rres_bind; [apply merge_tokens_rel; exact G|].
      intros [[a l] d] [[b l'] d'] [H1 [H2 H3]]. cbn [fst snd] in *. subst. cbn. split; [apply connect_rel; exact H1|reflexivity].
    Qed.

    Variable topo : graph -> res (list vid).
    Hypothesis TS : by_shape topo.
    Variable ti : tindex.
    Variable filt : option props_filter.
    Definition strel (Q : vid -> vertex -> vertex -> Prop) (s s' : astate) : Prop :=
      grel Q (a_graph s) (a_graph s') /\ a_t2v s' = a_t2v s /\ a_p2v s' = a_p2v s /\ a_varr s' = a_varr s.
    Lemma first_rel : forall w, iw_sigil w = sg -> grel R empty_graph empty_graph -> rres (strel R) (first_step ti w) (first_step (tiren f ti) (iwren f w)).
    Proof.
      intros w Ew G. unfold first_step. cbn [iwren iw_sigil iw_toks]. rewrite Ew. eapply rres_bind; [apply merge_rel; exact G|].
      intros [a d] [b d'] [H1 H2]. cbn [fst snd] in *. subst d'. apply rres_eq; [apply range_ren; exact Fi|]. intros r _.
      apply rres_eq; [cbn [tiren ti_array]; rewrite map_length; reflexivity|]. intros va _. cbn. unfold strel. auto.
    Qed.
    Lemma next_rel : forall detect st st' w, iw_sigil w = sg -> strel R st st' ->
      rres (strel R) (next_step topo filt detect ti st w) (next_step topo filt detect (tiren f ti) st' (iwren f w)).
    Proof.
      intros detect st st' w Ew [G [E1 [E2 E3]]]. unfold next_step. cbn [iwren iw_sigil iw_toks]. rewrite Ew, E1, E2, E3, (grel_vertices _ _ _ G).
      apply rres_eq; [apply (grel_ranking R); [exact TS|exact G]|]. intros rk _. apply rres_eq; [reflexivity|]. intros ranks _.
      rewrite (match_cube_ren f Fi). destruct (match_cube ti sg (a_varr st) (by_vertex rk) filt) as [m|e]; cbn [bind]; [|reflexivity].
      rewrite map_length. unfold fill_table. rewrite (more_rows_map (mt f)). rewrite (align_map (mt f)) by reflexivity.
      apply rres_eq; [reflexivity|]. intros al _. eapply rres_bind; [apply merge_rel; exact G|].
      intros [a d] [b d'] [H1 H2]. cbn [fst snd] in *. subst d'. apply rres_eq; [apply range_ren; exact Fi|]. intros r _.
      apply rres_eq; [reflexivity|]. intros wp _. apply rres_eq; [reflexivity|]. intros va _. destruct detect; cbn; [reflexivity|]. unfold strel. auto.
    Qed.
  End Step.

  (** ** The three phases: before the witness, the witness, after it *)
  Variable s : str.
  Variable E : list str.
  Hypothesis Fs : f s = [].
  Hypothesis S0 : s <> [].
  Hypothesis SE : ~ In s E.
  Notation got k d := (dget str_eqb k d).
  Definition listed (l : list token) : option (list token) := match l with [] => None | _ => Some l end.
  Definition others (x x' : vertex) : Prop :=
    v_label x' = v_label x /\ NoDup (map fst (v_tokens x)) /\ NoDup (map fst (v_tokens x')) /\
    forall k, k <> s -> got (f k) (v_tokens x') = option_map (map (mt f)) (got k (v_tokens x)).
  Definition shared (x : vertex) : Prop := exists u, In u E /\ got u (v_tokens x) <> None.
  Definition R0 (v : vid) (x x' : vertex) : Prop :=
    others x x' /\ got s (v_tokens x) = None /\ got [] (v_tokens x') = None /\ (v < 2 \/ shared x).
  Definition R1 (v : vid) (x x' : vertex) : Prop :=
    others x x' /\ exists l0 l, got s (v_tokens x) = listed (l0 ++ l) /\ got [] (v_tokens x') = listed (map (mt f) l) /\
      (l0 = [] /\ (v < 2 \/ shared x) \/ length l0 = 1 /\ ~ shared x).
  Definition R2 (v : vid) (x x' : vertex) : Prop :=
    others x x' /\ exists l0 l, got s (v_tokens x) = listed (l0 ++ l) /\ got [] (v_tokens x') = listed (map (mt f) l) /\
      (l0 = [] /\ (l = [] \/ v < 2 \/ shared x) \/ length l0 = 1 /\ ~ shared x).
  Lemma R01 : forall v x x', R0 v x x' -> R1 v x x'.
  Proof. intros v x x' [A [B [C D]]]. split; [exact A|]. exists [], []. cbn. auto. Qed.
  Lemma R12 : forall v x x', R1 v x x' -> R2 v x x'.
  Proof. intros v x x' [A [l0 [l [B [C D]]]]]. split; [exact A|]. exists l0, l. split; [exact B|]. split; [exact C|]. tauto. Qed.

  Lemma got_add : forall x k k' t, got k' (v_tokens (vertex_add_token x k t)) =
    if str_eqb k' k then Some (match got k (v_tokens x) with Some l => l ++ [t] | None => [t] end) else got k' (v_tokens x).
  Proof.
    intros. unfold vertex_add_token. cbn [v_tokens]. destruct (str_eqb k' k) eqn:Q.
    - apply str_eqb_ok in Q. subst k'. destruct (got k (v_tokens x)); apply (dget_set_same _ str_eqb_ok).
    - assert (k <> k') by (intros ->; rewrite (proj2 (str_eqb_ok k' k') eq_refl) in Q; discriminate).
      destruct (got k (v_tokens x)); apply (dget_set_other _ str_eqb_ok); assumption.
  Qed.
  Lemma eqb_diff : forall a b : str, a <> b -> str_eqb a b = false.
  Proof. intros a b N. destruct (str_eqb a b) eqn:Q; [apply str_eqb_ok in Q; contradiction|reflexivity]. Qed.
  Lemma eqb_same : forall a : str, str_eqb a a = true.
  Proof. intros a. apply str_eqb_ok. reflexivity. Qed.
  Lemma f_not : forall k, k <> s -> f k <> [].
  Proof. intros k N H. rewrite <- Fs in H. apply Fi in H. contradiction. Qed.
  Lemma add_NoDup : forall x sg t, NoDup (map fst (v_tokens x)) -> NoDup (map fst (v_tokens (vertex_add_token x sg t))).
  Proof. intros x sg t N. unfold vertex_add_token. cbn [v_tokens]. destruct (got sg (v_tokens x)); apply (dset_NoDup _ str_eqb_ok); exact N. Qed.
  Lemma new_NoDup : forall t sg, NoDup (map fst (v_tokens (new_vertex t sg))).
  Proof. intros t [|ch sg]; cbn [new_vertex v_tokens map fst]; [constructor|]. constructor; [intros []|constructor]. Qed.
  Lemma others_add : forall x x' sg t, others x x' -> others (vertex_add_token x sg t) (vertex_add_token x' (f sg) (mt f t)).
  Proof.
    intros x x' sg t [L [N1 [N2 K]]]. split; [exact L|]. split; [apply add_NoDup; exact N1|]. split; [apply add_NoDup; exact N2|]. intros k Nk. rewrite !got_add, (f_eqb f Fi). destruct (str_eqb k sg) eqn:Q; [|apply K; exact Nk].
    apply str_eqb_ok in Q. subst k. rewrite (K sg Nk). destruct (got sg (v_tokens x)); cbn [option_map]; [rewrite map_app|]; reflexivity.
  Qed.
  Lemma others_new : forall t sg, sg <> [] -> others (new_vertex t sg) (new_vertex (mt f t) (f sg)).
  Proof.
    intros t sg N. split; [reflexivity|]. split; [apply new_NoDup|]. split; [apply new_NoDup|]. intros k Nk. unfold new_vertex. cbn [v_tokens].
    destruct sg as [|ch sg]; [contradiction|]. destruct (f (ch :: sg)) as [|c' s'] eqn:Q.
    - rewrite <- Fs in Q. apply Fi in Q. rewrite Q. cbn [dget]. rewrite (eqb_diff k s Nk). reflexivity.
    - rewrite <- Q. cbn [dget]. rewrite (f_eqb f Fi). destruct (str_eqb k (ch :: sg)); reflexivity.
  Qed.
  Lemma new_got : forall t sg k, sg <> [] -> got k (v_tokens (new_vertex t sg)) = if str_eqb k sg then Some [t] else None.
  Proof. intros t [|ch sg] k N; [contradiction|]. reflexivity. Qed.
  Lemma shared_add : forall x sg t, shared x -> shared (vertex_add_token x sg t).
  Proof. intros x sg t [u [U1 U2]]. exists u. split; [exact U1|]. rewrite got_add. destruct (str_eqb u sg); [discriminate|exact U2]. Qed.
  Lemma shared_add_inv : forall x sg t, ~ In sg E -> shared (vertex_add_token x sg t) -> shared x.
  Proof.
    intros x sg t N [u [U1 U2]]. exists u. split; [exact U1|]. rewrite got_add in U2.
    rewrite (eqb_diff u sg) in U2; [exact U2|]. intros ->. contradiction.
  Qed.
  Lemma new_unnamed : forall t sg, sg <> [] -> sg <> s -> got [] (v_tokens (new_vertex (mt f t) (f sg))) = None.
  Proof.
    intros t sg N1 N2. rewrite new_got by (apply f_not; exact N2). rewrite (eqb_diff [] (f sg)); [reflexivity|]. intros Q. symmetry in Q. exact (f_not sg N2 Q).
  Qed.

  (** Before. *)
  Lemma R0_add : forall sg, In sg E -> forall v x x' t, R0 v x x' -> R0 v (vertex_add_token x sg t) (vertex_add_token x' (f sg) (mt f t)).
  Proof.
    intros sg I v x x' t [A [B [C D]]]. assert (N : sg <> s) by congruence. split; [apply others_add; exact A|]. rewrite !got_add.
    rewrite (eqb_diff s sg) by congruence. rewrite (eqb_diff [] (f sg)) by (intros Q; symmetry in Q; exact (f_not sg N Q)).
    split; [exact B|]. split; [exact C|]. destruct D as [D|D]; [left; exact D|right; apply shared_add; exact D].
  Qed.
  Lemma R0_new : forall sg, In sg E -> sg <> [] -> forall v t, 2 <= v -> R0 v (new_vertex t sg) (new_vertex (mt f t) (f sg)).
  Proof.
    intros sg I N v t _. assert (M : sg <> s) by congruence. split; [apply others_new; exact N|]. split; [|split].
    - rewrite new_got by exact N. rewrite (eqb_diff s sg) by congruence. reflexivity.
    - apply new_unnamed; assumption.
    - right. exists sg. split; [exact I|]. rewrite new_got by exact N. rewrite eqb_same. discriminate.
  Qed.
  Lemma R0_empty : grel R0 empty_graph empty_graph.
  Proof.
    assert (K : forall v lb, v < 2 -> R0 v {| v_label := lb; v_tokens := [] |} {| v_label := lb; v_tokens := [] |}).
    { intros v lb L. split; [split; [reflexivity|split; [constructor|split; [constructor|reflexivity]]]|]. split; [reflexivity|]. split; [reflexivity|]. left. exact L. }
    constructor; [|reflexivity|reflexivity|reflexivity|apply le_n]. cbn [empty_graph g_verts].
    constructor; [split; [reflexivity|apply K; apply Nat.lt_0_succ]|]. constructor; [split; [reflexivity|apply K; apply Nat.lt_succ_diag_r]|constructor].
  Qed.
  (** The witness itself. *)
  Lemma listed_add : forall l t, Some (match listed l with Some l1 => l1 ++ [t] | None => [t] end) = listed (l ++ [t]).
  Proof. intros [|a l] t; reflexivity. Qed.
  Lemma R1_add : forall v x x' t, R1 v x x' -> R1 v (vertex_add_token x s t) (vertex_add_token x' (f s) (mt f t)).
  Proof.
    intros v x x' t [A [l0 [l [B [C D]]]]]. split; [apply others_add; exact A|]. exists l0, (l ++ [t]).
    rewrite !got_add, Fs, !eqb_same, B, C, map_app, app_assoc. cbn [map]. rewrite !listed_add.
    split; [reflexivity|]. split; [reflexivity|]. destruct D as [[D1 D2]|[D1 D2]]; [left|right]; split; try assumption.
    - destruct D2 as [D2|D2]; [left; exact D2|right; apply shared_add; exact D2].
    - intros H. apply D2. exact (shared_add_inv _ _ _ SE H).
  Qed.
  Lemma R1_new : forall v t, 2 <= v -> R1 v (new_vertex t s) (new_vertex (mt f t) (f s)).
  Proof.
    intros v t _. split; [apply others_new; exact S0|]. exists [t], []. rewrite new_got, eqb_same by exact S0. split; [reflexivity|].
    split; [rewrite Fs; reflexivity|]. right. split; [reflexivity|]. intros [u [U1 U2]]. rewrite new_got in U2 by exact S0.
    rewrite (eqb_diff u s) in U2; [contradiction|]. intros ->. contradiction.
  Qed.
  (** After. *)
  Lemma R2_add : forall sg, ~ In sg E -> sg <> s -> forall v x x' t, R2 v x x' -> R2 v (vertex_add_token x sg t) (vertex_add_token x' (f sg) (mt f t)).
  Proof.
    intros sg I N v x x' t [A [l0 [l [B [C D]]]]]. split; [apply others_add; exact A|]. exists l0, l. rewrite !got_add.
    rewrite (eqb_diff s sg) by congruence. rewrite (eqb_diff [] (f sg)) by (intros Q; symmetry in Q; exact (f_not sg N Q)).
    split; [exact B|]. split; [exact C|]. destruct D as [[D1 D2]|[D1 D2]]; [left|right]; split; try assumption.
    - destruct D2 as [D2|[D2|D2]]; [left; exact D2|right; left; exact D2|right; right; apply shared_add; exact D2].
    - intros H. apply D2. exact (shared_add_inv _ _ _ I H).
  Qed.
  Lemma R2_new : forall sg, sg <> [] -> sg <> s -> forall v t, 2 <= v -> R2 v (new_vertex t sg) (new_vertex (mt f t) (f sg)).
  Proof.
    intros sg N M v t _. split; [apply others_new; exact N|]. exists [], []. rewrite new_got by exact N. rewrite (eqb_diff s sg) by congruence.
    rewrite new_unnamed by assumption. split; [reflexivity|]. split; [reflexivity|]. left. split; [reflexivity|]. left. reflexivity.
  Qed.

  (** ** All witnesses *)
  Section All.
    Variable topo : graph -> res (list vid).
    Hypothesis TS : by_shape topo.
    Variable ti : tindex.
    Variable filt : option props_filter.
    Variable detect : bool.
    Lemma rest_rel : forall post, (forall w, In w post -> iw_sigil w <> [] /\ iw_sigil w <> s /\ ~ In (iw_sigil w) E) ->
      forall st st', strel R2 st st' -> rres (strel R2) (foldM (next_step topo filt detect ti) post st) (foldM (next_step topo filt detect (tiren f ti)) (map (iwren f) post) st').
    Proof.
      induction post as [|w post IH]; intros P st st' H; cbn [foldM map]; [exact H|]. destruct (P w (or_introl eq_refl)) as [P1 [P2 P3]].
      eapply rres_bind; [apply (next_rel R2 (iw_sigil w)); [apply R2_add; assumption|apply R2_new; assumption|exact TS|reflexivity|exact H]|].
      intros a b Hab. apply IH; [intros; apply P; right; assumption|exact Hab].
    Qed.
    Lemma strel_impl : forall (R Q : vid -> vertex -> vertex -> Prop) a b, (forall v x x', R v x x' -> Q v x x') -> strel R a b -> strel Q a b.
    Proof. intros R Q a b H [G K]. split; [|exact K]. apply (grel_impl R Q); assumption. Qed.
    Lemma middle_rel : forall pre w post, (forall w, In w pre -> iw_sigil w <> [] /\ In (iw_sigil w) E) -> iw_sigil w = s ->
      (forall w, In w post -> iw_sigil w <> [] /\ iw_sigil w <> s /\ ~ In (iw_sigil w) E) ->
      forall st st', strel R0 st st' ->
      rres (strel R2) (foldM (next_step topo filt detect ti) (pre ++ w :: post) st) (foldM (next_step topo filt detect (tiren f ti)) (map (iwren f) (pre ++ w :: post)) st').
    Proof.
      induction pre as [|w0 pre IH]; intros w post P Ew Q st st' H; cbn [foldM map app].
      - eapply rres_bind; [apply (next_rel R1 s); [apply R1_add|apply R1_new|exact TS|exact Ew|apply (strel_impl R0 R1); [apply R01|exact H]]|].
        intros a b Hab. apply rest_rel; [exact Q|]. apply (strel_impl R1 R2); [apply R12|exact Hab].
      - destruct (P w0 (or_introl eq_refl)) as [P1 P2].
        eapply rres_bind; [apply (next_rel R0 (iw_sigil w0)); [apply R0_add; assumption|apply R0_new; assumption|exact TS|reflexivity|exact H]|].
        intros a b Hab. apply IH; try assumption. intros; apply P; right; assumption.
    Qed.
    Lemma align_rel : forall pre w post, ti_wits ti = pre ++ w :: post -> (forall w, In w pre -> iw_sigil w <> [] /\ In (iw_sigil w) E) -> iw_sigil w = s ->
      (forall w, In w post -> iw_sigil w <> [] /\ iw_sigil w <> s /\ ~ In (iw_sigil w) E) ->
      rres (strel R2) (align_all topo filt detect ti) (align_all topo filt detect (tiren f ti)).
    Proof.
      intros pre w post T P Ew Q. unfold align_all. cbn [tiren ti_wits]. rewrite T. destruct pre as [|w0 pre]; cbn [app map].
      - eapply rres_bind; [apply (first_rel R1 s); [apply R1_add|apply R1_new|exact Ew|apply (grel_impl R0 R1); [apply R01|apply R0_empty]]|].
        intros a b Hab. apply rest_rel; [exact Q|]. apply (strel_impl R1 R2); [apply R12|exact Hab].
      - destruct (P w0 (or_introl eq_refl)) as [P1 P2].
        eapply rres_bind; [apply (first_rel R0 (iw_sigil w0)); [apply R0_add; assumption|apply R0_new; assumption|reflexivity|apply R0_empty]|].
        intros a b Hab. apply middle_rel; try assumption. intros; apply P; right; assumption.
    Qed.
  End All.
End Unnamed.
