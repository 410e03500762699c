(** The representations made from the graph and the table. *)
From Verif Require Import Py TokenModel SuffixModel IndexModel GraphModel AlignModel TableModel NearModel ExportModel
  CollateModel Lib GraphSpec GraphProof MergeProof RankProof TableSpec TableProof SuffixSpec SuffixProof IndexProof BlockText InstProof CubeProof
  AlignProof AlignerProof CollateProof JoinProof CollateSpec ResultProof ErrorProof FactsProof.
From Coq Require Import Permutation Relations QArith.
Open Scope list_scope.
Open Scope nat_scope.

Lemma mapM_total : forall {A B} (f : A -> res B) l, (forall a, In a l -> exists b, f a = Ok b) -> exists bs, mapM f l = Ok bs.
Proof.
  intros A B f l. induction l as [|a l IH]; intros H; [exists []; reflexivity|].
  destruct (H a (or_introl eq_refl)) as [b E]. destruct IH as [bs E']; [intros x Hx; apply H; right; assumption|].
  exists (b :: bs). cbn [mapM]. rewrite E. cbn [bind]. rewrite E'. reflexivity.
Qed.

Lemma mapM_Forall2 : forall {A B} (f : A -> res B) l bs, mapM f l = Ok bs -> Forall2 (fun a b => f a = Ok b) l bs.
Proof.
  intros A B f l. induction l as [|a l IH]; intros bs H; cbn [mapM] in H.
  - injection H as <-. constructor.
  - apply bind_ok in H as [b [H1 H]]. apply bind_ok in H as [bs' [H2 H]]. injection H as <-. constructor; auto.
Qed.

Lemma mapM_from : forall {A B} (f : A -> res B) l bs, Forall2 (fun a b => f a = Ok b) l bs -> mapM f l = Ok bs.
Proof. intros A B f l bs F. induction F as [|a b l bs E F IH]; [reflexivity|]. cbn [mapM]. rewrite E, IH. reflexivity. Qed.

(** Every token in a table has a textual 't'. *)
Definition token_texts (t : table) : Prop :=
  (forall col sg ts tk, In col (t_columns t) -> In (sg, ts) (c_cells col) -> In tk ts ->
    exists s, dget str_eqb (lit "t") (tk_data tk) = Some (JStr s)) /\
  (forall ro ts tk, In ro (t_rows t) -> In (Some ts) (r_cells ro) -> In tk ts ->
    exists s, dget str_eqb (lit "t") (tk_data tk) = Some (JStr s)).

Lemma cell_text_total : forall ts, (forall tk, In tk ts -> exists s, dget str_eqb (lit "t") (tk_data tk) = Some (JStr s)) ->
  exists s, cell_text ts = Ok s.
Proof.
  intros ts H. destruct (mapM_total token_t ts) as [l E].
  - intros tk Ht. destruct (H tk Ht) as [s D]. exists s. unfold token_t, dgetE. rewrite D. reflexivity.
  - exists (concat l). unfold cell_text. rewrite E. reflexivity.
Qed.

Lemma insert_item_In : forall {V} (x y : str * V) l, In y (insert_item x l) <-> y = x \/ In y l.
Proof.
  intros V x y l. induction l as [|z l IH]; cbn [insert_item].
  - cbn. intuition.
  - destruct (str_ltb (fst z) (fst x)); cbn [In]; rewrite ?IH; intuition.
Qed.
Lemma sort_items_In : forall {V} (y : str * V) l, In y (sort_items l) <-> In y l.
Proof.
  intros V y l. unfold sort_items. induction l as [|x l IH]; [reflexivity|]. cbn [fold_right In]. rewrite insert_item_In, IH. intuition.
Qed.

Lemma readings_total : forall t col, token_texts t -> In col (t_columns t) -> exists rs, column_readings col = Ok rs.
Proof.
  intros t col [T _] Hc. unfold column_readings. apply mapM_total. intros [sg ts] Hi. rewrite sort_items_In in Hi.
  destruct (cell_text_total ts) as [s E]; [intros tk Ht; apply (T col sg ts tk Hc Hi Ht)|]. rewrite E. eexists. reflexivity.
Qed.

Lemma export_xml_total : forall t, token_texts t -> exists s, export_xml t = Ok s.
Proof.
  intros t T. unfold export_xml. destruct (mapM_total column_readings (t_columns t)) as [l E].
  - intros col Hc. apply (readings_total t col T Hc).
  - rewrite E. eexists. reflexivity.
Qed.

Lemma export_tei_total : forall cc b t, token_texts t -> exists s, export_tei cc b t = Ok s.
Proof.
  intros cc b t T. unfold export_tei, tei_items. destruct (mapM_total (tei_column cc (length (t_rows t))) (t_columns t)) as [l E].
  - intros col Hc. destruct (readings_total t col T Hc) as [rs E]. unfold tei_column. rewrite E. eexists. reflexivity.
  - rewrite E. eexists. reflexivity.
Qed.

Lemma row_strings_total : forall t ro, token_texts t -> In ro (t_rows t) -> exists l, row_strings ro = Ok l.
Proof.
  intros t ro [_ T] Hr. apply mapM_total. intros [ts|] Hi; [|eexists; reflexivity].
  destruct (cell_text_total ts) as [s E]; [intros tk Ht; apply (T ro ts tk Hr Hi Ht)|].
  unfold cell_string. destruct ts; [eexists; reflexivity|]. rewrite E. eexists. reflexivity.
Qed.

Lemma export_csv_total : forall b t, token_texts t -> exists s, export_csv b t = Ok s.
Proof.
  intros b t T. unfold export_csv.
  destruct (mapM_total (fun r => l <- row_strings r ;; Ok (Some (r_header r) :: l)) (t_rows t)) as [l E].
  - intros ro Hr. destruct (row_strings_total t ro T Hr) as [l E]. rewrite E. eexists. reflexivity.
  - rewrite E. eexists. reflexivity.
Qed.

(** Which representation is made. *)
Lemma lit_neq : forall a b, str_eqb (lit a) (lit b) = false -> lit a <> lit b.
Proof. intros a b H E. rewrite E, str_eqb_refl in H. discriminate. Qed.

Section Render.
  Variables (cc : cclass) (topo : graph -> res (list vid)) (ratio : str -> str -> Q).

  (** Everything a successful call tells. *)
  Definition made_from (c : collation) (o : options) (g : graph) (r : ranking) (x : output) : Prop :=
    match x with
    | OSvg _ g' | OGraph g' => g' = g
    | _ => exists t, construct_table (map w_sigil c) g r = Ok t /\
      match x with
      | OJson j => j = if o_vertical o then export_vertical_json t (map w_sigil c) else export_json false t
      | OHtml t' | OHtml2 t' | OTable t' => t' = t
      | OXml s => export_xml t = Ok s
      | OTei s => export_tei cc (o_indent o) t = Ok s
      | OCsv s => (o_output o = lit "csv" /\ export_csv false t = Ok s) \/ (o_output o = lit "tsv" /\ export_csv true t = Ok s)
      | _ => False
      end
    end.

  Lemma render_inv : forall c o g r x, render cc c o g r = Ok x -> representation_ok (o_output o) x /\ made_from c o g r x.
  Proof.
    intros c o g r x H. unfold render in H.
    destruct (str_eqb (o_output o) (lit "svg")) eqn:E1; [apply str_eqb_ok in E1; injection H as <-; split; [exact E1|reflexivity]|].
    destruct (str_eqb (o_output o) (lit "svg_simple")) eqn:E2; [apply str_eqb_ok in E2; injection H as <-; split; [exact E2|reflexivity]|].
    destruct (str_eqb (o_output o) (lit "graph")) eqn:E3; [apply str_eqb_ok in E3; injection H as <-; split; [exact E3|reflexivity]|].
    apply bind_ok in H as [t [HT H]].
    destruct (str_eqb (o_output o) (lit "json")) eqn:E4.
    { apply str_eqb_ok in E4. destruct (o_vertical o) eqn:V; injection H as <-; (split; [exact E4|]); exists t; rewrite V; auto. }
    destruct (str_eqb (o_output o) (lit "html")) eqn:E5; [apply str_eqb_ok in E5; injection H as <-; split; [exact E5|exists t; auto]|].
    destruct (str_eqb (o_output o) (lit "html2")) eqn:E6; [apply str_eqb_ok in E6; injection H as <-; split; [exact E6|exists t; auto]|].
    destruct (str_eqb (o_output o) (lit "table")) eqn:E7; [apply str_eqb_ok in E7; injection H as <-; split; [exact E7|exists t; auto]|].
    destruct (str_eqb (o_output o) (lit "xml")) eqn:E8.
    { apply str_eqb_ok in E8. apply bind_ok in H as [s [H1 H]]. injection H as <-. split; [exact E8|exists t; auto]. }
    destruct (str_eqb (o_output o) (lit "tei")) eqn:E9.
    { apply str_eqb_ok in E9. apply bind_ok in H as [s [H1 H]]. injection H as <-. split; [exact E9|exists t; auto]. }
    destruct (str_eqb (o_output o) (lit "csv")) eqn:E10.
    { apply str_eqb_ok in E10. apply bind_ok in H as [s [H1 H]]. injection H as <-. split; [left; exact E10|exists t; auto]. }
    destruct (str_eqb (o_output o) (lit "tsv")) eqn:E11; [|discriminate].
    apply str_eqb_ok in E11. apply bind_ok in H as [s [H1 H]]. injection H as <-. split; [right; exact E11|exists t; auto].
  Qed.

  Lemma render_unknown : forall c o g r t, ~ In (o_output o) outputs -> construct_table (map w_sigil c) g r = Ok t ->
    render cc c o g r = Raise UnknownOutput.
  Proof.
    intros c o g r t N HT. unfold render. rewrite HT. cbn [bind].
    assert (G : forall s, In s outputs -> str_eqb (o_output o) s = false).
    { intros s Hs. destruct (str_eqb (o_output o) s) eqn:E; [|reflexivity]. apply str_eqb_ok in E. subst s. contradiction. }
    rewrite !G by (unfold outputs, outputs_with_text; cbn [app In]; tauto). reflexivity.
  Qed.

  Lemma render_total : forall c o g r t, In (o_output o) outputs -> (In (o_output o) outputs_with_text -> token_texts t) ->
    construct_table (map w_sigil c) g r = Ok t -> exists x, render cc c o g r = Ok x.
  Proof.
    intros c o g r t I T HT. unfold render. rewrite HT. cbn [bind].
    destruct (str_eqb (o_output o) (lit "svg")) eqn:E1; [eexists; reflexivity|].
    destruct (str_eqb (o_output o) (lit "svg_simple")) eqn:E2; [eexists; reflexivity|].
    destruct (str_eqb (o_output o) (lit "graph")) eqn:E3; [eexists; reflexivity|].
    destruct (str_eqb (o_output o) (lit "json")) eqn:E4; [destruct (o_vertical o); eexists; reflexivity|].
    destruct (str_eqb (o_output o) (lit "html")) eqn:E5; [eexists; reflexivity|].
    destruct (str_eqb (o_output o) (lit "html2")) eqn:E6; [eexists; reflexivity|].
    destruct (str_eqb (o_output o) (lit "table")) eqn:E7; [eexists; reflexivity|].
    assert (IT : In (o_output o) outputs_with_text).
    { unfold outputs in I. apply in_app_iff in I as [I|I]; [|assumption]. exfalso.
      cbn [In] in I. repeat (destruct I as [I|I]; [rewrite <- I, str_eqb_refl in *; discriminate|]). contradiction. }
    specialize (T IT).
    destruct (str_eqb (o_output o) (lit "xml")) eqn:E8; [destruct (export_xml_total t T) as [s E]; rewrite E; eexists; reflexivity|].
    destruct (str_eqb (o_output o) (lit "tei")) eqn:E9; [destruct (export_tei_total cc (o_indent o) t T) as [s E]; rewrite E; eexists; reflexivity|].
    destruct (str_eqb (o_output o) (lit "csv")) eqn:E10; [destruct (export_csv_total false t T) as [s E]; rewrite E; eexists; reflexivity|].
    destruct (str_eqb (o_output o) (lit "tsv")) eqn:E11; [destruct (export_csv_total true t T) as [s E]; rewrite E; eexists; reflexivity|].
    exfalso. unfold outputs_with_text in IT. cbn [In] in IT.
    repeat (destruct IT as [IT|IT]; [rewrite <- IT, str_eqb_refl in *; discriminate|]). contradiction.
  Qed.

  Lemma collate_inv : forall c o x, collate cc topo ratio c o = Ok x ->
    exists g r, collate_graph cc topo ratio c o = Ok (g, r) /\ representation_ok (o_output o) x /\ made_from c o g r x.
  Proof.
    intros c o x H. unfold collate in H. apply bind_ok in H as [[g r] [H1 H]]. apply render_inv in H as [H2 H3]. exists g, r. auto.
  Qed.

  Lemma collate_graph_output : forall c o s, collate_graph cc topo ratio c (set_output o s) = collate_graph cc topo ratio c o.
  Proof. reflexivity. Qed.

  Lemma collate_as_table : forall c o g r t, collate_graph cc topo ratio c o = Ok (g, r) -> construct_table (map w_sigil c) g r = Ok t ->
    collate cc topo ratio c (set_output o (lit "table")) = Ok (OTable t).
  Proof. intros c o g r t H1 H2. unfold collate. rewrite collate_graph_output, H1. cbn [bind]. unfold render. rewrite H2. reflexivity. Qed.

  (** A representation made from the table is made from the table that the same call with
      output="table" returns. *)
  Lemma collate_pair : forall c o x, collate cc topo ratio c o = Ok x ->
    (match x with OSvg _ _ | OGraph _ => False | _ => True end) ->
    exists t, collate cc topo ratio c (set_output o (lit "table")) = Ok (OTable t) /\
      match x with
      | OJson j => j = if o_vertical o then export_vertical_json t (map w_sigil c) else export_json false t
      | OHtml t' | OHtml2 t' | OTable t' => t' = t
      | OXml s => export_xml t = Ok s
      | OTei s => export_tei cc (o_indent o) t = Ok s
      | OCsv s => (o_output o = lit "csv" /\ export_csv false t = Ok s) \/ (o_output o = lit "tsv" /\ export_csv true t = Ok s)
      | _ => False
      end.
  Proof.
    intros c o x H N. apply collate_inv in H as [g [r [H1 [H2 H3]]]].
    assert (X : exists t, construct_table (map w_sigil c) g r = Ok t /\ match x with
      | OJson j => j = if o_vertical o then export_vertical_json t (map w_sigil c) else export_json false t
      | OHtml t' | OHtml2 t' | OTable t' => t' = t
      | OXml s => export_xml t = Ok s
      | OTei s => export_tei cc (o_indent o) t = Ok s
      | OCsv s => (o_output o = lit "csv" /\ export_csv false t = Ok s) \/ (o_output o = lit "tsv" /\ export_csv true t = Ok s)
      | _ => False
      end) by (destruct x; try contradiction; exact H3).
    destruct X as [t [X1 X2]]. exists t. split; [apply (collate_as_table c o g r t H1 X1)|exact X2].
  Qed.
End Render.

Section Cells.
  Variables (cc : cclass) (topo : graph -> res (list vid)) (ratio : str -> str -> Q).
  Hypothesis TO : topo_ok topo.

  Lemma carries_token : forall c W p v ts tk, Forall2 carries c W -> In p W -> In (v, ts) (snd p) -> In tk ts ->
    exists w t0, In w c /\ w_sigil w = fst p /\ In t0 (w_toks w) /\ came_from (w_sigil w) t0 tk.
  Proof.
    intros c W p v ts tk F. induction F as [|w q c W [H1 H2] F IH]; intros Hp Hv Ht; [contradiction|].
    destruct Hp as [<-|Hp].
    - exists w. assert (Hi : In tk (flat_map snd (snd q))) by (apply in_flat_map; exists (v, ts); auto).
      clear - H1 H2 Hi. revert H2 Hi. generalize (flat_map snd (snd q)). intros l F Hi.
      assert (exists t0, In t0 (w_toks w) /\ came_from (w_sigil w) t0 tk) as [t0 [A B]].
      { induction F as [|a b la lb E F IH]; [contradiction|]. destruct Hi as [<-|Hi].
        - exists a. split; [left; reflexivity|assumption].
        - destruct (IH Hi) as [t0 [A B]]. exists t0. split; [right; assumption|assumption]. }
      exists t0. split; [left; reflexivity|]. auto.
    - destruct (IH Hp Hv Ht) as [w' [t0 [A B]]]. exists w', t0. split; [right; assumption|assumption].
  Qed.

  (** Every cell of the table holds tokens of the witness named. *)
  Theorem cells_input : forall c o t, good_sigla c -> collate cc topo ratio c o = Ok (OTable t) ->
    (forall col sg ts tk, In col (t_columns t) -> In (sg, ts) (c_cells col) -> In tk ts ->
       exists w t0, In w c /\ w_sigil w = sg /\ In t0 (w_toks w) /\ came_from (w_sigil w) t0 tk) /\
    (forall ro ts tk, In ro (t_rows t) -> In (Some ts) (r_cells ro) -> In tk ts ->
       exists w t0, In w c /\ w_sigil w = r_header ro /\ In t0 (w_toks w) /\ came_from (w_sigil w) t0 tk).
  Proof.
    intros c o t [ND NE] H. destruct (collate_table_inv cc topo ratio c o t H) as [g [r [H1 H2]]].
    destruct (result_spec cc topo ratio TO c o g r ND NE H1) as [ti [st [W0 [W [part RS]]]]].
    pose proof (jo_graph _ _ _ _ _ _ (rs_joined _ _ _ _ _ _ _ _ _ _ _ RS)) as GI.
    pose proof (rs_ranks _ _ _ _ _ _ _ _ _ _ _ RS) as RI.
    pose proof (rs_carries _ _ _ _ _ _ _ _ _ _ _ RS) as CA.
    rewrite (table_weak g W GI _ r RI) in H2. injection H2 as <-.
    assert (A : forall col sg ts tk, In col (t_columns (wtable W (map w_sigil c) r)) -> In (sg, ts) (c_cells col) -> In tk ts ->
       exists w t0, In w c /\ w_sigil w = sg /\ In t0 (w_toks w) /\ came_from (w_sigil w) t0 tk).
    { intros col sg ts tk Hc Hi Ht. apply In_nth_error in Hc as [i Hc]. destruct (column_In g W _ _ _ _ RI Hc) as [vs [V1 [V2 V3]]].
      subst col. cbn [c_cells wcol] in Hi. apply wcells_In in Hi as [v [p [P1 [P2 [P3 P4]]]]].
      destruct (carries_token c W p v ts tk CA P2 P4 Ht) as [w [t0 [A1 [A2 A3]]]]. exists w, t0. rewrite <- P3. auto. }
    split; [exact A|]. intros ro ts tk Hr Hi Ht. cbn [t_rows wtable] in Hr. apply in_map_iff in Hr as [sg [<- Hs]].
    cbn [r_cells construct_row r_header] in *. apply in_map_iff in Hi as [col [E Hc]]. apply (dget_In _ str_eqb_ok) in E.
    apply (A col sg ts tk Hc E Ht).
  Qed.

  Lemma came_from_text : forall sg t0 tk k, came_from sg t0 tk -> k <> k_pos -> k <> k_sigil ->
    dget str_eqb k (tk_data tk) = dget str_eqb k (t0_data t0).
  Proof.
    intros sg t0 tk k [_ E] N1 N2. change (lit "_token_array_position") with k_pos in E. change (lit "_sigil") with k_sigil in E.
    rewrite E, !(dget_set _ str_eqb_ok).
    destruct (str_eqb k_pos k) eqn:E1; [apply str_eqb_ok in E1; congruence|].
    destruct (str_eqb k_sigil k) eqn:E2; [apply str_eqb_ok in E2; congruence|]. reflexivity.
  Qed.

  Theorem table_texts : forall c o t, good_sigla c -> has_texts c -> collate cc topo ratio c o = Ok (OTable t) -> token_texts t.
  Proof.
    intros c o t G HT H. destruct (cells_input c o t G H) as [A B]. split.
    - intros col sg ts tk H1 H2 H3. destruct (A col sg ts tk H1 H2 H3) as [w [t0 [W1 [W2 [W3 W4]]]]].
      destruct (HT w t0 W1 W3) as [s D]. exists s. rewrite (came_from_text _ _ _ _ W4) by (apply lit_neq; reflexivity). exact D.
    - intros ro ts tk H1 H2 H3. destruct (B ro ts tk H1 H2 H3) as [w [t0 [W1 [W2 [W3 W4]]]]].
      destruct (HT w t0 W1 W3) as [s D]. exists s. rewrite (came_from_text _ _ _ _ W4) by (apply lit_neq; reflexivity). exact D.
  Qed.

  Theorem collate_succeeds : forall c o, c <> [] -> good_sigla c -> no_empty_witness c -> ~ marker_clash (o_filter o) c ->
    In (o_output o) outputs -> (In (o_output o) outputs_with_text -> has_texts c) ->
    o_astar o = false -> o_transp o = false -> o_near o = false -> exists x, collate cc topo ratio c o = Ok x.
  Proof.
    intros c o N G NE NM IO HT O1 O2 O3. pose proof G as [ND NG].
    destruct (collate_graph_total cc topo ratio TO c o N ND NG NE NM O1 O2 O3) as [g [r E]].
    destruct (table_exists cc topo ratio TO c o g r ND NG E) as [W HTab].
    assert (X : exists x, render cc c o g r = Ok x); [|destruct X as [x X]].
    - apply (render_total cc c o g r (wtable W (map w_sigil c) r) IO); [|exact HTab]. intros I. apply (table_texts c (set_output o (lit "table"))); auto. apply (collate_as_table cc topo ratio c o g r _ E HTab).
    - exists x. unfold collate. rewrite E. exact X.
  Qed.

  Theorem collate_unknown : forall c o g r, good_sigla c -> ~ In (o_output o) outputs -> collate_graph cc topo ratio c o = Ok (g, r) ->
    collate cc topo ratio c o = Raise UnknownOutput.
  Proof.
    intros c o g r [ND NG] N E. destruct (table_exists cc topo ratio TO c o g r ND NG E) as [W HTab].
    unfold collate. rewrite E. cbn [bind]. eapply render_unknown; [exact topo|exact N|exact HTab].
  Qed.
End Cells.
