(** Exceptions: rejected input, and exceptions that never occur. *)
From Verif Require Import Py TokenModel SuffixModel IndexModel GraphModel AlignModel TableModel NearModel ExportModel
  CollateModel Lib GraphSpec GraphProof MergeProof RankProof TableSpec TableProof SuffixSpec SuffixProof IndexProof BlockText InstProof CubeProof
  AlignProof AlignerProof CollateProof JoinProof ResultProof.
From Coq Require Import Permutation Relations QArith.
Open Scope list_scope.
Open Scope nat_scope.

(** ** Empty witnesses *)
Lemma prepare_loop_empty : forall ws idx counter tap ranges arr out,
  Exists (fun w => w_toks w = []) ws -> prepare_loop ws idx counter tap ranges arr out = Raise AssertionError.
Proof.
  induction ws as [|w ws IH]; intros idx counter tap ranges arr out H; [inversion H|].
  cbn [prepare_loop]. unfold range_of. destruct (w_toks w) as [|t ts] eqn:E.
  - cbn [length]. rewrite Nat.add_0_r, Nat.ltb_irrefl. reflexivity.
  - inversion H as [? ? H0|? ? H0]; subst; [congruence|].
    assert (L : counter <? counter + length (t :: ts) = true) by (apply Nat.ltb_lt; cbn [length]; lia).
    rewrite L. cbn [bind]. apply IH. assumption.
Qed.

Lemma prepare_empty : forall c, Exists (fun w => w_toks w = []) c -> prepare c = Raise AssertionError.
Proof. intros c H. unfold prepare, prepare_array. rewrite prepare_loop_empty by assumption. reflexivity. Qed.

Lemma prepare_none : prepare [] = Raise IndexError.
Proof. reflexivity. Qed.

Lemma empty_or_not : forall c, Exists (fun w => w_toks w = []) c \/ Forall (fun w => w_toks w <> []) c.
Proof.
  induction c as [|w c [IH|IH]]; [right; constructor|left; apply Exists_cons_tl; assumption|].
  destruct (w_toks w) eqn:E; [left; apply Exists_cons_hd; assumption|right; constructor; [congruence|assumption]].
Qed.

(** ** No cycle error *)
Definition nocyc {A} (m : res A) : Prop := m <> Raise GraphCycle.
Lemma nocyc_ok : forall {A} (a : A), nocyc (Ok a). Proof. intros A a C. discriminate. Qed.
Lemma nocyc_bind : forall {A B} (m : res A) (f : A -> res B), nocyc m -> (forall a, m = Ok a -> nocyc (f a)) -> nocyc (bind m f).
Proof. intros A B [a|e] f H1 H2; cbn [bind]; [apply H2; reflexivity|]. intro C. apply H1. injection C as ->. reflexivity. Qed.
Lemma nocyc_foldM : forall {A S} (f : S -> A -> res S) l s, (forall s a, nocyc (f s a)) -> nocyc (foldM f l s).
Proof.
  intros A S f l. induction l as [|a l IH]; intros s H; [apply nocyc_ok|]. cbn [foldM]. apply nocyc_bind; [apply H|].
  intros s' _. apply IH. assumption.
Qed.
Lemma nocyc_mapM : forall {A B} (f : A -> res B) l, (forall a, nocyc (f a)) -> nocyc (mapM f l).
Proof.
  intros A B f l H. induction l as [|a l IH]; [apply nocyc_ok|]. cbn [mapM]. apply nocyc_bind; [apply H|].
  intros b _. apply nocyc_bind; [assumption|]. intros bs _. apply nocyc_ok.
Qed.
Lemma nocyc_aget : forall {A} (l : list A) i, nocyc (aget l i).
Proof. intros. unfold aget. destruct (nth_error l i); intro; discriminate. Qed.
Lemma nocyc_aset : forall {A} (l : list A) i x, nocyc (aset l i x).
Proof. intros. unfold aset. destruct (i <? length l); intro; discriminate. Qed.
Lemma nocyc_dgetE : forall {K V} (eqb : K -> K -> bool) k (d : list (K * V)), nocyc (dgetE eqb k d).
Proof. intros. unfold dgetE. destruct (dget eqb k d); intro; discriminate. Qed.
Lemma nocyc_raise : forall {A} e, e <> GraphCycle -> nocyc (@Raise A e).
Proof. intros A e H C. injection C as ->. congruence. Qed.

Ltac nocyc :=
  repeat first
    [ apply nocyc_ok
    | apply nocyc_raise; discriminate
    | apply nocyc_aget | apply nocyc_aset | apply nocyc_dgetE
    | match goal with
      | |- nocyc (bind _ _) => apply nocyc_bind; [|intros ? _]
      | |- nocyc (foldM _ _ _) => apply nocyc_foldM; intros
      | |- nocyc (mapM _ _) => apply nocyc_mapM; intros
      end
    | match goal with
      | |- nocyc (match ?x with _ => _ end) => destruct x
      | |- nocyc (let '(_, _) := ?x in _) => destruct x
      end ].

Lemma nocyc_cell_text : forall ts, nocyc (cell_text ts).
Proof. intros. unfold cell_text, token_t. nocyc. Qed.
Lemma nocyc_readings : forall c, nocyc (column_readings c).
Proof. intros. unfold column_readings. nocyc; try apply nocyc_cell_text. Qed.

Lemma nocyc_render : forall cc c o g r, nocyc (construct_table (map w_sigil c) g r) -> nocyc (render cc c o g r).
Proof.
  intros cc c o g r H. unfold render.
  destruct (str_eqb (o_output o) (lit "svg")); [apply nocyc_ok|].
  destruct (str_eqb (o_output o) (lit "svg_simple")); [apply nocyc_ok|].
  destruct (str_eqb (o_output o) (lit "graph")); [apply nocyc_ok|].
  apply nocyc_bind; [assumption|]. intros t _.
  destruct (str_eqb (o_output o) (lit "json")); [destruct (o_vertical o); apply nocyc_ok|].
  destruct (str_eqb (o_output o) (lit "html")); [apply nocyc_ok|].
  destruct (str_eqb (o_output o) (lit "html2")); [apply nocyc_ok|].
  destruct (str_eqb (o_output o) (lit "table")); [apply nocyc_ok|].
  destruct (str_eqb (o_output o) (lit "xml")).
  { unfold export_xml. nocyc; try apply nocyc_readings. }
  destruct (str_eqb (o_output o) (lit "tei")).
  { unfold export_tei, tei_items, tei_column. nocyc; try apply nocyc_readings. }
  destruct (str_eqb (o_output o) (lit "csv")).
  { unfold export_csv, row_strings, cell_string. nocyc; try apply nocyc_cell_text. }
  destruct (str_eqb (o_output o) (lit "tsv")).
  { unfold export_csv, row_strings, cell_string. nocyc; try apply nocyc_cell_text. }
  nocyc.
Qed.

Lemma nocyc_cube : forall ti sg varr rank filt, nocyc (match_cube ti sg varr rank filt).
Proof.
  intros. unfold match_cube, start_token_position, get_range_for_witness, cube_instance, cube_step, block_instances, filtered_token_data. nocyc.
Qed.

Lemma nocyc_list_remove : forall x l, nocyc (list_remove x l).
Proof. induction l as [|a l IH]; cbn [list_remove]; nocyc. apply IH. Qed.

Lemma bind_assoc : forall {A B C} (m : res A) (f : A -> res B) (h : B -> res C), bind (bind m f) h = bind m (fun x => bind (f x) h).
Proof. intros A B C [a|e] f h; reflexivity. Qed.

Lemma next_step_true : forall topo filt ti st w,
  next_step topo filt true ti st w = bind (next_step topo filt false ti st w) (fun _ => Raise AttributeError).
Proof.
  intros. unfold next_step.
  repeat (rewrite bind_assoc; match goal with |- bind ?m _ = _ => destruct m as [?|?]; [cbn [bind]|reflexivity] end;
          try match goal with |- context [match ?x with (_, _) => _ end] => destruct x end).
  reflexivity.
Qed.

Section NoCycle.
  Variables (cc : cclass) (topo : graph -> res (list vid)) (ratio : str -> str -> Q).
  Hypothesis TO : topo_ok topo.

  Lemma nocyc_ranking : forall g W, graph_of (without_near g) W -> nocyc (ranking_of topo g).
  Proof.
    intros g W GI. unfold ranking_of. destruct (topo_near topo g W TO GI) as [l [T _]]. rewrite T. cbn [bind].
    apply nocyc_bind; [apply nocyc_foldM; intros; unfold rank_step; nocyc|]. intros r _.
    apply nocyc_foldM. intros. apply nocyc_foldM. intros. unfold near_step. nocyc. apply nocyc_list_remove.
  Qed.

  Lemma nocyc_near : forall g W r, graph_of (without_near g) W -> nocyc (perform_near_match topo ratio g r).
  Proof.
    intros g W r GI. unfold perform_near_match. destruct (topo_near topo g W TO GI) as [l [T _]]. rewrite T. cbn [bind].
    assert (E : forall e st, without_near (fst st) = without_near g -> nocyc (near_edge_step topo ratio st e)).
    { intros [[src v] lb] [g1 r1] S. cbn [fst] in S. unfold near_edge_step, best_candidate, get_vertex. nocyc.
      apply (nocyc_ranking _ W). change (without_near (connect_near g1 n src q)) with (without_near g1). rewrite S. assumption. }
    assert (F : forall es st, without_near (fst st) = without_near g -> nocyc (foldM (near_edge_step topo ratio) es st)).
    { induction es as [|e es IH]; intros st S; [apply nocyc_ok|]. cbn [foldM]. apply nocyc_bind; [apply E; assumption|].
      intros st' H. apply IH. rewrite (near_edge_same _ _ _ _ _ H). assumption. }
    assert (G : forall L st, without_near (fst st) = without_near g ->
      nocyc (foldM (fun st v => foldM (near_edge_step topo ratio) (in_edges (fst st) v) st) L st)).
    { induction L as [|v L IH]; intros st S; [apply nocyc_ok|]. cbn [foldM]. apply nocyc_bind; [apply F; assumption|].
      intros st' H. apply IH. rewrite <- S. apply (foldM_same (fun st => without_near (fst st))) in H; [exact H|].
      intros s a s' He. apply (near_edge_same _ _ _ _ _ He). }
    apply nocyc_bind; [apply G; reflexivity|]. intros [g' r'] H. apply nocyc_bind; [|intros; nocyc].
    apply (nocyc_ranking g' W).
    apply (foldM_same (fun st => without_near (fst st))) in H; [cbn [fst] in H; rewrite H; assumption|].
    intros st v st' Hs. apply (foldM_same (fun st => without_near (fst st))) in Hs; [exact Hs|].
    intros s a s' He. apply (near_edge_same _ _ _ _ _ He).
  Qed.

  Lemma nocyc_prepare : forall c, NoDup (map w_sigil c) -> nocyc (prepare c).
  Proof.
    intros c ND. destruct (empty_or_not c) as [E|E]; [rewrite prepare_empty by assumption; nocyc|].
    destruct c as [|w c]; [rewrite prepare_none; nocyc|].
    destruct (prepare_total (w :: c)) as [ti P]; auto; [discriminate|]. rewrite P. nocyc.
  Qed.

  Lemma nocyc_align : forall c ti filt detect, index_ok c ti -> index_text_ok ti -> ~ In [] (map w_sigil c) ->
    nocyc (align_all topo filt detect ti).
  Proof.
    intros c ti filt detect IX TX NE. unfold align_all. destruct (ti_wits ti) as [|iw rest] eqn:E; [nocyc|].
    destruct (first_step_inv c ti filt IX NE iw rest E) as [st1 [path [F1 F2]]]. rewrite F1. cbn [bind].
    assert (G : forall rest done st W, ti_wits ti = done ++ rest -> W <> [] -> al_inv filt ti done st W ->
      nocyc (foldM (next_step topo filt detect ti) rest st)).
    { clear rest E st1 F1 F2. induction rest as [|iw' rest IH]; intros done st W DW NW AL; [nocyc|]. cbn [foldM].
      destruct (next_step_inv c ti filt IX TX NE topo TO done iw' rest st W DW NW AL) as [rk [mm [l [start [RK [RO [Hs [HP N]]]]]]]].
      assert (NF : nocyc (next_step topo filt false ti st iw')).
      { destruct (match_cube ti (iw_sigil iw') (a_varr st) (by_vertex (ranking_for rk mm l)) filt) as [m|e] eqn:Hm.
        - destruct (N m eq_refl) as [al [_ [st2 [N1 _]]]]. rewrite N1. nocyc.
        - unfold next_step. rewrite RK. cbn [bind]. apply nocyc_bind; [nocyc|intros ranks _]. rewrite Hm. cbn [bind].
          apply nocyc_raise. intros ->. apply (nocyc_cube _ _ _ _ _ Hm). }
      destruct detect.
      - rewrite next_step_true. apply nocyc_bind; [apply nocyc_bind; [exact NF|intros; nocyc]|].
        intros s' C. exfalso. apply bind_ok in C as [? [_ C]]. discriminate.
      - apply nocyc_bind; [exact NF|]. intros st1 H1.
        destruct (next_step_cube ti filt topo st iw' st1 _ RK H1) as [m Hm]. destruct (N m Hm) as [al [_ [st2 [N1 N2]]]].
        rewrite H1 in N1. injection N1 as <-.
        apply (IH (done ++ [iw']) st1 _) in N2; [assumption| |destruct W; discriminate].
        rewrite DW, <- app_assoc. reflexivity. }
    apply (fun A => G rest [iw] st1 [(iw_sigil iw, steps (iw_toks iw) path)] E A F2). discriminate.
  Qed.

  Theorem no_cycle_error : forall c o, NoDup (map w_sigil c) -> ~ In [] (map w_sigil c) ->
    nocyc (collate cc topo ratio c o).
  Proof.
    intros c o ND NE. unfold collate. apply nocyc_bind.
    - unfold collate_graph. apply nocyc_bind.
      + destruct (o_astar o); [nocyc|]. unfold aligner_collate. apply nocyc_bind; [apply nocyc_prepare; assumption|].
        intros ti P. apply nocyc_bind; [|intros; nocyc]. apply (nocyc_align c); auto; [apply prepare_index_ok|apply (prepare_text_ok c)]; assumption.
      + intros [ti g] H. destruct (o_astar o); [discriminate|].
        destruct (aligner_spec _ _ _ _ _ _ TO ND NE H) as [_ [_ [st [W0 [E [AL [NW CA]]]]]]].
        pose proof (al_graph _ _ _ _ _ AL) as GI. rewrite E in GI.
        pose proof (one_token_paths _ _ (al_paths _ _ _ _ _ AL)) as ONE.
        pose proof (graph_of_near _ _ GI) as NN. assert (GI2 : graph_of (without_near g) W0) by (rewrite NN; assumption).
        apply nocyc_bind; [apply (nocyc_ranking g W0 GI2)|]. intros r1 _.
        apply nocyc_bind.
        { destruct (o_near o); [|nocyc]. destruct (o_segmentation o); [nocyc|]. apply (nocyc_near g W0 r1 GI2). }
        intros [g2 r2] Hg. destruct (o_segmentation o) eqn:Hs; [|nocyc].
        destruct (o_near o); [discriminate|]. injection Hg as <- <-.
        destruct (join_spec cc g W0 GI ONE) as [g3 [W [part [J3 [J4 J5]]]]]. rewrite J3. cbn [bind].
        apply nocyc_bind; [|intros; nocyc]. pose proof (jo_graph _ _ _ _ _ _ J4) as GI3.
        apply (nocyc_ranking g3 W). rewrite (graph_of_near _ _ GI3). assumption.
    - intros [g r] H. apply nocyc_render. destruct (table_exists cc topo ratio TO c o g r ND NE H) as [W T]. rewrite T. nocyc.
  Qed.
End NoCycle.

(** ** The siglum of the first witness occurs again *)
Lemma prepare_loop_range : forall ws idx counter tap ranges arr out r a o sg,
  prepare_loop ws idx counter tap ranges arr out = Ok (r, a, o) ->
  (In sg (map w_sigil ws) -> exists p, dget str_eqb sg r = Some p /\ p <> [] /\ forall x, In x p -> counter <= x) /\
  (~ In sg (map w_sigil ws) -> dget str_eqb sg r = dget str_eqb sg ranges).
Proof.
  induction ws as [|w ws IH]; intros idx counter tap ranges arr out r a o sg H.
  - injection H as <- <- <-. split; [intros []|reflexivity].
  - cbn [prepare_loop] in H. apply bind_ok in H as [p [R H]]. specialize (IH _ _ _ _ _ _ _ _ _ sg H) as [I1 I2].
    unfold range_of in R. destruct (counter <? counter + length (w_toks w)) eqn:L; [|discriminate]. injection R as <-. apply Nat.ltb_lt in L.
    destruct (in_dec (list_eq_dec N.eq_dec) sg (map w_sigil ws)) as [Hi|Hi].
    + split; [|cbn [map In]; tauto]. intros _. destruct (I1 Hi) as [p [P1 [P2 P3]]]. exists p. split; [assumption|]. split; [assumption|].
      intros x Hx. specialize (P3 x Hx). lia.
    + rewrite (I2 Hi), (dget_set _ str_eqb_ok). cbn [map In]. split.
      * intros [E|E]; [|contradiction]. rewrite E, str_eqb_refl. eexists. split; [reflexivity|]. split.
        -- intro C. apply (f_equal (@length nat)) in C. rewrite seq_length in C. cbn in C. lia.
        -- intros x Hx. apply in_seq in Hx. lia.
      * intros N. assert (E : str_eqb (w_sigil w) sg = false) by (apply (eqb_neq _ str_eqb_ok); tauto). rewrite E. reflexivity.
Qed.

Lemma prepare_loop_wits : forall ws idx counter tap ranges arr out r a o,
  prepare_loop ws idx counter tap ranges arr out = Ok (r, a, o) -> exists o', o = out ++ o' /\
    match ws with [] => o' = [] | w :: _ => exists rest, o' = {| iw_sigil := w_sigil w; iw_toks := stamp (w_sigil w) tap (w_toks w) |} :: rest end.
Proof.
  induction ws as [|w ws IH]; intros idx counter tap ranges arr out r a o H.
  - injection H as <- <- <-. exists []. rewrite app_nil_r. auto.
  - cbn [prepare_loop] in H. apply bind_ok in H as [p [R H]]. destruct (IH _ _ _ _ _ _ _ _ _ H) as [o' [-> _]].
    eexists. rewrite <- app_assoc. split; [reflexivity|]. cbn [app]. eauto.
Qed.

Lemma stamp_pos_lt : forall sg ts pos t, In t (stamp sg pos ts) -> tk_pos t < pos + length ts.
Proof.
  induction ts as [|t0 ts IH]; intros pos t H; [contradiction|]. cbn [stamp length] in *. destruct H as [<-|H]; [cbn [tk_pos]; lia|].
  apply IH in H. lia.
Qed.

Lemma merge_new_keys : forall ts g sg last t2v g' l' n, merge_tokens g sg ts [] last t2v = Ok (g', l', n) ->
  forall p, In p (map fst n) -> In p (map fst t2v) \/ In p (map tk_pos ts).
Proof.
  induction ts as [|t ts IH]; intros g sg last t2v g' l' n H p Hp.
  - injection H as <- <- <-. auto.
  - cbn [merge_tokens] in H. cbn [dget] in H. destruct (add_vertex g t sg) as [g1 v]. destruct (IH _ _ _ _ _ _ _ H p Hp) as [I|I].
    + apply (dset_In_key _ nat_eqb_ok) in I as [->|I]; [right; left; reflexivity|auto].
    + right. right. assumption.
Qed.

Lemma p2v_keys : forall t2v d p, In p (map fst (fold_left (fun d '(p, v) => dset Nat.eqb p v d) t2v d)) ->
  In p (map fst d) \/ In p (map fst (t2v : list (nat * vid))).
Proof.
  induction t2v as [|[q v] t2v IH]; intros d p H; [auto|]. cbn [fold_left] in H. apply IH in H as [H|H]; [|right; right; assumption].
  apply (dset_In_key _ nat_eqb_ok) in H as [->|H]; [right; left; reflexivity|auto].
Qed.

Theorem first_siglum_repeated : forall topo w c filt detect, In (w_sigil w) (map w_sigil c) ->
  exists e, aligner_collate topo filt detect (w :: c) = Raise e.
Proof.
  intros topo w c filt detect Hi. destruct (aligner_collate topo filt detect (w :: c)) as [res|e] eqn:A; [|eauto]. exfalso.
  unfold aligner_collate in A. apply bind_ok in A as [ti [P A]]. apply bind_ok in A as [st [A _]].
  unfold prepare in P. apply bind_ok in P as [[[rg arr] o] [P1 P]].
  apply bind_ok in P as [sa [_ P]]. apply bind_ok in P as [bl [_ P]]. apply bind_ok in P as [inst [_ P]]. injection P as <-.
  unfold prepare_array in P1. apply bind_ok in P1 as [[[rg' arr'] o'] [P1 P2]]. apply bind_ok in P2 as [a2 [_ P2]]. injection P2 as <- <- <-.
  destruct (prepare_loop_wits _ _ _ _ _ _ _ _ _ _ P1) as [o2 [E [rest E2]]]. cbn [app] in E. subst o2.
  cbn [prepare_loop] in P1. apply bind_ok in P1 as [p0 [R P1]].
  destruct (prepare_loop_range _ _ _ _ _ _ _ _ _ _ (w_sigil w) P1) as [I1 _]. destruct (I1 Hi) as [p [G1 [G2 G3]]].
  unfold align_all in A. cbn [ti_wits] in A. rewrite E2 in A. apply bind_ok in A as [st1 [F _]].
  unfold first_step in F. cbn [iw_sigil iw_toks] in F. apply bind_ok in F as [[g t2v] [M F]].
  unfold get_range_for_witness in F. cbn [ti_ranges] in F. rewrite G1 in F. cbn [bind] in F.
  apply bind_ok in F as [varr [U _]]. destruct p as [|x p]; [congruence|].
  unfold update_varr in U. cbn [foldM] in U. apply bind_ok in U as [a1 [U _]]. apply bind_ok in U as [v [U _]].
  apply (dgetE_ok _) in U. apply (dget_In _ nat_eqb_ok) in U. apply (in_map fst) in U. cbn [fst] in U.
  unfold update_p2v in U. cbn [fold_left] in U. apply p2v_keys in U as [[]|U].
  unfold merge in M. apply bind_ok in M as [[[g1 l1] n1] [M M2]]. injection M2 as <- <-.
  destruct (merge_new_keys _ _ _ _ _ _ _ _ M x U) as [[]|I]. apply in_map_iff in I as [t [E I]]. apply stamp_pos_lt in I.
  specialize (G3 x (or_introl eq_refl)). lia.
Qed.
