(** Tokens without a text: which error an output with texts raises. *)
From Verif Require Import Py Lib TokenModel SuffixModel IndexModel GraphModel AlignModel TableModel NearModel ExportModel CollateModel HtmlModel DrawModel
  GraphSpec GraphProof MergeProof RankProof TableSpec TableProof CollateSpec ResultProof CollateProof ErrorProof OutputProof NearProof HtmlProof DrawSpec DrawProof TextErrSpec.
From Coq Require Import QArith.
Open Scope list_scope.
Open Scope nat_scope.

Lemma mapM_error : forall {A B} (f : A -> res B) l e, mapM f l = Raise e -> exists a, In a l /\ f a = Raise e.
Proof.
  intros A B f l e. induction l as [|a l IH]; cbn [mapM]; intros H; [discriminate|].
  destruct (f a) as [b|e'] eqn:E; cbn [bind] in H; [|injection H as <-; exists a; split; [left; reflexivity|assumption]].
  destruct (mapM f l) as [bs|e'] eqn:E'; cbn [bind] in H; [discriminate|]. injection H as <-.
  destruct (IH eq_refl) as [x [X Y]]. exists x. split; [right; assumption|assumption].
Qed.
Lemma mapM_done : forall {A B} (f : A -> res B) l bs a, mapM f l = Ok bs -> In a l -> exists b, f a = Ok b.
Proof.
  intros A B f l bs a H Ha. apply mapM_Forall2 in H. induction H as [|x b l bs E F IH]; [contradiction|].
  destruct Ha as [<-|Ha]; eauto.
Qed.

(** The text of one token. *)
Lemma token_t_error : forall tk e, token_t tk = Raise e -> text_error (tk_data tk) e.
Proof.
  intros tk e H. unfold token_t, dgetE in H. unfold text_error.
  destruct (dget str_eqb (lit "t") (tk_data tk)) as [v|]; cbn [bind] in H.
  - right. destruct v; try discriminate; injection H as <-; (split; [reflexivity|]); eexists; (split; [reflexivity|]); intros s C; discriminate.
  - injection H as <-. left. auto.
Qed.
Lemma token_t_done : forall tk s, token_t tk = Ok s -> dget str_eqb (lit "t") (tk_data tk) = Some (JStr s).
Proof.
  intros tk s H. unfold token_t, dgetE in H. destruct (dget str_eqb (lit "t") (tk_data tk)) as [v|]; cbn [bind] in H; [|discriminate].
  destruct v; try discriminate. injection H as <-. reflexivity.
Qed.
Lemma cell_error : forall ts e, cell_text ts = Raise e -> exists tk, In tk ts /\ text_error (tk_data tk) e.
Proof.
  intros ts e H. unfold cell_text in H. destruct (mapM token_t ts) as [l|e'] eqn:E; cbn [bind] in H; [discriminate|]. injection H as <-.
  destruct (mapM_error _ _ _ E) as [tk [A B]]. exists tk. split; [assumption|apply token_t_error; assumption].
Qed.
Lemma cell_done : forall ts s tk, cell_text ts = Ok s -> In tk ts -> exists x, dget str_eqb (lit "t") (tk_data tk) = Some (JStr x).
Proof.
  intros ts s tk H Ht. unfold cell_text in H. apply bind_ok in H as [l [H _]]. destruct (mapM_done _ _ _ _ H Ht) as [x X].
  exists x. apply token_t_done. assumption.
Qed.

(** What the columns (rows) of a table hold. *)
Definition column_token (t : table) (tk : token) : Prop := exists col sg ts, In col (t_columns t) /\ In (sg, ts) (c_cells col) /\ In tk ts.
Definition row_token (t : table) (tk : token) : Prop := exists ro ts, In ro (t_rows t) /\ In (Some ts) (r_cells ro) /\ In tk ts.
Definition texted (tk : token) : Prop := exists s, dget str_eqb (lit "t") (tk_data tk) = Some (JStr s).

Lemma readings_result : forall col,
  match column_readings col with
  | Ok _ => forall sg ts tk, In (sg, ts) (c_cells col) -> In tk ts -> texted tk
  | Raise e => exists sg ts tk, In (sg, ts) (c_cells col) /\ In tk ts /\ text_error (tk_data tk) e
  end.
Proof.
  intros col. unfold column_readings. match goal with |- context [mapM ?f ?l] => destruct (mapM f l) as [rs|e] eqn:E end.
  - intros sg ts tk Hi Ht. destruct (mapM_done _ _ _ (sg, ts) E) as [b B]; [apply sort_items_In; assumption|].
    apply bind_ok in B as [s [B _]]. apply (cell_done ts s tk B Ht).
  - destruct (mapM_error _ _ _ E) as [[sg ts] [A B]]. rewrite sort_items_In in A.
    destruct (cell_text ts) as [s|e'] eqn:C; cbn [bind] in B; [discriminate|]. injection B as <-.
    destruct (cell_error ts _ C) as [tk [T1 T2]]. exists sg, ts, tk. auto.
Qed.

Definition columns_say {A} (t : table) (r : res A) : Prop :=
  match r with
  | Ok _ => forall tk, column_token t tk -> texted tk
  | Raise e => exists tk, column_token t tk /\ text_error (tk_data tk) e
  end.
Definition rows_say {A} (t : table) (r : res A) : Prop :=
  match r with
  | Ok _ => forall tk, row_token t tk -> texted tk
  | Raise e => exists tk, row_token t tk /\ text_error (tk_data tk) e
  end.

Lemma xml_result : forall t, columns_say t (export_xml t).
Proof.
  intros t. unfold export_xml. destruct (mapM column_readings (t_columns t)) as [l|e] eqn:E; cbn [bind columns_say].
  - intros tk [col [sg [ts [A [B C]]]]]. destruct (mapM_done _ _ _ _ E A) as [rs R]. pose proof (readings_result col) as X. rewrite R in X.
    apply (X sg ts tk B C).
  - destruct (mapM_error _ _ _ E) as [col [A B]]. pose proof (readings_result col) as X. rewrite B in X. destruct X as [sg [ts [tk [X1 [X2 X3]]]]].
    exists tk. split; [|assumption]. exists col, sg, ts. auto.
Qed.

Lemma tei_result : forall cc b t, columns_say t (export_tei cc b t).
Proof.
  intros cc b t. unfold export_tei, tei_items. destruct (mapM (tei_column cc (length (t_rows t))) (t_columns t)) as [l|e] eqn:E; cbn [bind columns_say].
  - intros tk [col [sg [ts [A [B C]]]]]. destruct (mapM_done _ _ _ _ E A) as [rs R]. pose proof (readings_result col) as X.
    unfold tei_column in R. apply bind_ok in R as [y [R _]]. rewrite R in X. apply (X sg ts tk B C).
  - destruct (mapM_error _ _ _ E) as [col [A B]]. pose proof (readings_result col) as X. unfold tei_column in B.
    destruct (column_readings col) as [rs|e'] eqn:R; cbn [bind] in B; [discriminate|]. injection B as <-.
    destruct X as [sg [ts [tk [X1 [X2 X3]]]]]. exists tk. split; [|assumption]. exists col, sg, ts. auto.
Qed.

Lemma csv_result : forall b t, rows_say t (export_csv b t).
Proof.
  intros b t. unfold export_csv.
  destruct (mapM (fun r => l <- row_strings r ;; Ok (Some (r_header r) :: l)) (t_rows t)) as [l|e] eqn:E; cbn [bind rows_say].
  - intros tk [ro [ts [A [B C]]]]. destruct (mapM_done _ _ _ _ E A) as [x X]. apply bind_ok in X as [y [X _]]. unfold row_strings in X.
    destruct (mapM_done _ _ _ _ X B) as [z Z]. destruct ts as [|t0 ts]; [contradiction|]. unfold cell_string in Z. apply bind_ok in Z as [s [Z _]]. apply (cell_done _ s tk Z C).
  - destruct (mapM_error _ _ _ E) as [ro [A B]]. destruct (row_strings ro) as [x|e'] eqn:R; cbn [bind] in B; [discriminate|]. injection B as <-.
    unfold row_strings in R. destruct (mapM_error _ _ _ R) as [cl [C D]]. destruct cl as [[|t0 ts]|]; try discriminate. unfold cell_string in D.
    destruct (cell_text (t0 :: ts)) as [s|e''] eqn:Z; cbn [bind] in D; [discriminate|]. injection D as <-.
    destruct (cell_error _ _ Z) as [tk [T1 T2]]. exists tk. split; [|assumption]. exists ro, (t0 :: ts). auto.
Qed.

Lemma html2_result : forall fill sigla t, (forall col sg ts, In col (t_columns t) -> In (sg, ts) (c_cells col) -> In sg sigla) ->
  (forall col, In col (t_columns t) -> NoDup (map fst (c_cells col))) -> columns_say t (html2 fill sigla t).
Proof.
  intros fill sigla t HS ND. unfold html2. destruct (mapM (fun col => mapM (html2_cell fill col) sigla) (t_columns t)) as [l|e] eqn:E; cbn [bind columns_say].
  - intros tk [col [sg [ts [A [B C]]]]]. destruct (mapM_done _ _ _ _ E A) as [x X]. destruct (mapM_done _ _ _ _ X (HS col sg ts A B)) as [y Y].
    unfold html2_cell in Y. rewrite (In_dget _ str_eqb_ok _ _ _ (ND col A) B) in Y. apply bind_ok in Y as [s [Y _]]. destruct ts as [|t0 ts]; [contradiction|].
    apply (cell_done _ s tk Y C).
  - destruct (mapM_error _ _ _ E) as [col [A B]]. destruct (mapM_error _ _ _ B) as [sg [_ D]]. unfold html2_cell in D.
    destruct (dget str_eqb sg (c_cells col)) as [[|t0 ts]|] eqn:G; cbn [shown_text bind] in D; try discriminate.
    destruct (cell_text (t0 :: ts)) as [s|e'] eqn:Z; cbn [bind] in D; [discriminate|]. injection D as <-.
    apply (dget_In _ str_eqb_ok) in G. destruct (cell_error _ _ Z) as [tk [T1 T2]]. exists tk. split; [|assumption]. exists col, sg, (t0 :: ts). auto.
Qed.

Lemma print_result : forall fill cc layout t, layout = lit "horizontal" \/ layout = lit "vertical" -> rows_say t (print_table fill cc layout t).
Proof.
  intros fill cc layout t HL.
  assert (S : forall cl e, shown_text cl = Raise e -> exists ts tk, cl = Some ts /\ In tk ts /\ text_error (tk_data tk) e).
  { intros [[|t0 ts]|] e H; cbn [shown_text] in H; try discriminate. destruct (cell_error _ _ H) as [tk [T1 T2]]. exists (t0 :: ts), tk. auto. }
  assert (D : forall ts s tk, shown_text (Some ts) = Ok s -> In tk ts -> texted tk).
  { intros [|t0 ts] s tk H Ht; [contradiction|]. apply (cell_done _ s tk H Ht). }
  destruct HL as [-> | ->]; unfold print_table.
  - change (str_eqb (lit "horizontal") (lit "vertical")) with false. rewrite str_eqb_refl.
    destruct (mapM (print_row cc) (t_rows t)) as [l|e] eqn:E; cbn [bind rows_say].
    + intros tk [ro [ts [A [B C]]]]. destruct (mapM_done _ _ _ _ E A) as [x X]. unfold print_row in X. apply bind_ok in X as [y [X _]].
      destruct (mapM_done _ _ _ _ X B) as [s Z]. apply (D ts s tk Z C).
    + destruct (mapM_error _ _ _ E) as [ro [A B]]. unfold print_row in B. destruct (mapM shown_text (r_cells ro)) as [x|e'] eqn:R; cbn [bind] in B; [discriminate|].
      injection B as <-. destruct (mapM_error _ _ _ R) as [cl [C1 C2]]. destruct (S cl _ C2) as [ts [tk [-> [T1 T2]]]]. exists tk. split; [|assumption]. exists ro, ts. auto.
  - rewrite str_eqb_refl. destruct (mapM (print_column fill) (t_rows t)) as [l|e] eqn:E; cbn [bind rows_say].
    + intros tk [ro [ts [A [B C]]]]. destruct (mapM_done _ _ _ _ E A) as [x X]. unfold print_column in X. apply bind_ok in X as [y [X _]].
      destruct (mapM_done _ _ _ _ X B) as [s Z]. apply (D ts s tk Z C).
    + destruct (mapM_error _ _ _ E) as [ro [A B]]. unfold print_column in B. destruct (mapM shown_text (r_cells ro)) as [x|e'] eqn:R; cbn [bind] in B; [discriminate|].
      injection B as <-. destruct (mapM_error _ _ _ R) as [cl [C1 C2]]. destruct (S cl _ C2) as [ts [tk [-> [T1 T2]]]]. exists tk. split; [|assumption]. exists ro, ts. auto.
Qed.

(** ** From the table to the witnesses *)
Section Witnesses.
  Variables (cc : cclass) (topo : graph -> res (list vid)) (ratio : str -> str -> Q).
  Hypothesis TO : topo_ok topo.

  Lemma came_from_t : forall sg t0 tk, came_from sg t0 tk -> dget str_eqb (lit "t") (tk_data tk) = dget str_eqb (lit "t") (t0_data t0).
  Proof. intros sg t0 tk H. apply (came_from_text sg t0 tk); [assumption|apply lit_neq; reflexivity..]. Qed.
  Lemma came_from_error : forall sg t0 tk e, came_from sg t0 tk -> text_error (tk_data tk) e -> text_error (t0_data t0) e.
  Proof. intros sg t0 tk e H. unfold text_error. rewrite (came_from_t _ _ _ H). auto. Qed.

  Lemma row_tokens_all : forall c o t w t0, good_sigla c -> o_near o = false -> collate cc topo ratio c o = Ok (OTable t) -> In w c -> In t0 (w_toks w) ->
    exists tk, row_token t tk /\ came_from (w_sigil w) t0 tk.
  Proof.
    intros c o t w t0 [ND NE] Hn H Hw Ht. pose proof (rows_lossless cc topo ratio TO c o t ND NE Hn H) as F.
    assert (exists ro, In ro (t_rows t) /\ Forall2 (came_from (w_sigil w)) (w_toks w) (row_tokens ro)) as [ro [A B]].
    { clear - F Hw. induction F as [|w' ro c' l [E1 E2] F IH]; [contradiction|]. destruct Hw as [<-|Hw]; [exists ro; split; [left; reflexivity|assumption]|].
      destruct (IH Hw) as [ro' [X Y]]. exists ro'. split; [right; assumption|assumption]. }
    assert (exists tk, In tk (row_tokens ro) /\ came_from (w_sigil w) t0 tk) as [tk [C D]].
    { clear - B Ht. induction B as [|a b l l' E F IH]; [contradiction|]. destruct Ht as [<-|Ht]; [exists b; split; [left; reflexivity|assumption]|].
      destruct (IH Ht) as [tk [X Y]]. exists tk. split; [right; assumption|assumption]. }
    exists tk. split; [|assumption]. unfold row_tokens in C. apply in_flat_map in C as [[ts|] [C1 C2]]; [|contradiction]. exists ro, ts. auto.
  Qed.

  Lemma row_in_column : forall c o t tk, collate cc topo ratio c o = Ok (OTable t) -> row_token t tk -> column_token t tk.
  Proof.
    intros c o t tk H [ro [ts [A [B C]]]]. destruct (collate_table_inv cc topo ratio c o t H) as [g [r [_ H2]]].
    unfold construct_table in H2. apply bind_ok in H2 as [cols [_ H2]]. injection H2 as <-. cbn [t_rows t_columns] in *.
    apply in_map_iff in A as [sg [<- _]]. cbn [construct_row r_cells] in B. apply in_map_iff in B as [col [D Hc]]. apply (dget_In _ str_eqb_ok) in D.
    exists col, sg, ts. auto.
  Qed.

  Theorem rows_texts : forall {A} c o t (r : res A), good_sigla c -> collate cc topo ratio c o = Ok (OTable t) -> rows_say t r ->
    match r with Ok _ => o_near o = false -> has_texts c | Raise e => some_text_error c e end.
  Proof.
    intros A c o t r G H S. destruct r as [x|e]; cbn [rows_say] in S.
    - intros Hn w t0 Hw Ht. destruct (row_tokens_all c o t w t0 G Hn H Hw Ht) as [tk [B C]]. destruct (S tk B) as [s D]. exists s.
      rewrite <- (came_from_t _ _ _ C). exact D.
    - destruct S as [tk [[ro [ts [B1 [B2 B3]]]] C]]. destruct (cells_input cc topo ratio TO c o t G H) as [_ X].
      destruct (X ro ts tk B1 B2 B3) as [w [t0 [W1 [_ [W3 W4]]]]]. exists w, t0. split; [assumption|]. split; [assumption|]. apply (came_from_error _ _ _ _ W4 C).
  Qed.
  Theorem columns_texts : forall {A} c o t (r : res A), good_sigla c -> collate cc topo ratio c o = Ok (OTable t) -> columns_say t r ->
    match r with Ok _ => o_near o = false -> has_texts c | Raise e => some_text_error c e end.
  Proof.
    intros A c o t r G H S. destruct r as [x|e]; cbn [columns_say] in S.
    - intros Hn w t0 Hw Ht. destruct (row_tokens_all c o t w t0 G Hn H Hw Ht) as [tk [B C]].
      destruct (S tk (row_in_column c o t tk H B)) as [s D]. exists s. rewrite <- (came_from_t _ _ _ C). exact D.
    - destruct S as [tk [[col [sg [ts [B1 [B2 B3]]]]] C]]. destruct (cells_input cc topo ratio TO c o t G H) as [X _].
      destruct (X col sg ts tk B1 B2 B3) as [w [t0 [W1 [_ [W3 W4]]]]]. exists w, t0. split; [assumption|]. split; [assumption|]. apply (came_from_error _ _ _ _ W4 C).
  Qed.
End Witnesses.

(** ** The drawing *)
Lemma foldM_error : forall {A B} (f : B -> A -> res B) l b e, foldM f l b = Raise e -> exists a b', In a l /\ f b' a = Raise e.
Proof.
  intros A B f l. induction l as [|a l IH]; cbn [foldM]; intros b e H; [discriminate|].
  destruct (f b a) as [b'|e'] eqn:E; cbn [bind] in H.
  - destruct (IH b' e H) as [x [y [X Y]]]. exists x, y. split; [right; assumption|assumption].
  - injection H as <-. exists a, b. split; [left; reflexivity|assumption].
Qed.
Lemma foldM_done : forall {A B} (f : B -> A -> res B) l b r a, foldM f l b = Ok r -> In a l -> exists b' r', f b' a = Ok r'.
Proof.
  intros A B f l. induction l as [|x l IH]; cbn [foldM]; intros b r a H Ha; [contradiction|].
  apply bind_ok in H as [b' [H1 H]]. destruct Ha as [<-|Ha]; [eauto|]. apply (IH b' r a H Ha).
Qed.

Lemma svg_label_result : forall k vx,
  match svg_label k vx with
  | Ok _ => forall sg ts tk, In (sg, ts) (v_tokens vx) -> In tk ts -> texted tk
  | Raise e => exists sg ts tk, In (sg, ts) (v_tokens vx) /\ In tk ts /\ text_error (tk_data tk) e
  end.
Proof.
  intros k vx. unfold svg_label. destruct (foldM add_reading (v_tokens vx) []) as [d|e] eqn:E; cbn [bind].
  - intros sg ts tk Hi Ht. destruct (foldM_done _ _ _ _ (sg, ts) E Hi) as [b [r X]]. unfold add_reading in X. apply bind_ok in X as [l [X _]]. cbn [snd] in X.
    destruct (mapM_done _ _ _ _ X Ht) as [s Y]. apply bind_ok in Y as [z [Y _]]. exists z. apply token_t_done. assumption.
  - destruct (foldM_error _ _ _ _ E) as [[sg ts] [b [A B]]]. unfold add_reading in B. cbn [snd] in B.
    match type of B with context [mapM ?f ?l] => destruct (mapM f l) as [x|e'] eqn:M end; cbn [bind] in B; [discriminate|]. injection B as <-.
    destruct (mapM_error _ _ _ M) as [tk [C D]]. destruct (token_t tk) as [s|e''] eqn:T; cbn [bind] in D; [discriminate|]. injection D as <-.
    exists sg, ts, tk. split; [assumption|]. split; [assumption|]. apply token_t_error. assumption.
Qed.

Section Drawing.
  Variables (cc : cclass) (topo : graph -> res (list vid)) (ratio : str -> str -> Q) (weight_text : Q -> str).
  Hypothesis TO : topo_ok topo.

  Theorem drawing_texts : forall c o g r, good_sigla c -> collate_graph cc topo ratio c o = Ok (g, r) ->
    match draw topo weight_text false g with Ok _ => has_texts c | Raise e => some_text_error c e end.
  Proof.
    intros c o g r G H1. pose proof (collate_ranking cc topo ratio c o g r H1) as R.
    destruct (placed_result cc topo ratio TO c o g r G H1) as [W [rk [m [l [CA [GI [NW [RO [P NG]]]]]]]]].
    assert (ALL : forall v vx sg ts tk, In (v, vx) (g_verts g) -> In (sg, ts) (v_tokens vx) -> In tk ts ->
      exists w t0, In w c /\ In t0 (w_toks w) /\ came_from (w_sigil w) t0 tk).
    { intros v vx sg ts tk Hv Hi Ht. assert (D : dget Nat.eqb v (g_verts g) = Some vx) by (apply (In_dget _ nat_eqb_ok); [apply (gi_verts _ _ GI)|assumption]).
      rewrite (gi_tokens _ _ GI v vx D) in Hi. apply tokens_on_In in Hi as [p [P1 [P2 P3]]]. apply (dget_In _ nat_eqb_ok) in P3.
      destruct (carries_token c W p v ts tk CA P1 P3 Ht) as [w [t0 [A1 [A2 [A3 A4]]]]]. exists w, t0. auto. }
    assert (RK : forall v vx, In (v, vx) (g_verts g) -> exists k, dget Nat.eqb v (by_vertex r) = Some k).
    { intros v vx Hv. apply (pd_verts _ _ _ _ P). apply (in_map fst) in Hv. exact Hv. }
    unfold draw. rewrite R. cbn [bind]. destruct (foldM (draw_node false r) (g_verts g) (0, [], [])) as [[[k mm] nodes]|e] eqn:F.
    - assert (T : forall v vx sg ts tk, In (v, vx) (g_verts g) -> In (sg, ts) (v_tokens vx) -> In tk ts -> texted tk).
      { intros v vx sg ts tk Hv Hi Ht. destruct (foldM_done _ _ _ _ (v, vx) F Hv) as [[[k' m'] n'] [r' X]]. unfold draw_node in X. cbn [fst snd] in X.
        apply bind_ok in X as [lb [X _]]. apply bind_ok in X as [rank [_ X]]. pose proof (svg_label_result rank vx) as S. rewrite X in S. apply (S sg ts tk Hi Ht). }
      destruct (draw_total topo weight_text false g r (gi_verts _ _ GI) R) as [d D].
      + apply (ranks_in_of topo g W); auto.
      + intros e He. apply (edge_ends _ W GI e He).
      + exact NG.
      + intros _ v vx Hv. split; [apply (RK v vx Hv)|]. intros sg ts tk Hi Ht. apply (T v vx sg ts tk Hv Hi Ht).
      + unfold draw in D. rewrite R in D. cbn [bind] in D. rewrite F in D. cbn [bind] in D |- *. rewrite D.
        intros w t0 Hw Ht.
        assert (exists p, In p W /\ carries w p) as [p [Hp [_ CF]]].
        { clear - CA Hw. induction CA as [|a b la lb E FA IH]; [contradiction|]. destruct Hw as [<-|Hw]; [exists b; split; [left; reflexivity|assumption]|].
          destruct (IH Hw) as [p [X Y]]. exists p. split; [right; assumption|assumption]. }
        assert (exists tk, In tk (flat_map snd (snd p)) /\ came_from (w_sigil w) t0 tk) as [tk [C1 C2]].
        { clear - CF Ht. induction CF as [|a b la lb E FA IH]; [contradiction|]. destruct Ht as [<-|Ht]; [exists b; split; [left; reflexivity|assumption]|].
          destruct (IH Ht) as [tk [X Y]]. exists tk. split; [right; assumption|assumption]. }
        apply in_flat_map in C1 as [[v ts] [V1 V2]]. cbn [snd] in V2.
        assert (HV : In v (vertices g)) by (apply (gi_on _ _ GI p v ts Hp V1)).
        apply in_map_iff in HV as [[v' vx] [E HV]]. cbn [fst] in E. subst v'.
        assert (D' : dget Nat.eqb v (g_verts g) = Some vx) by (apply (In_dget _ nat_eqb_ok); [apply (gi_verts _ _ GI)|assumption]).
        destruct (T v vx (fst p) ts tk HV) as [s S]; [|assumption|].
        * rewrite (gi_tokens _ _ GI v vx D'). apply tokens_on_In. exists p. split; [assumption|]. split; [reflexivity|].
          apply (In_dget _ nat_eqb_ok); [pose proof (gi_simple _ _ GI p Hp) as NDp; unfold chain in NDp; inversion NDp as [|? ? _ N2]; subst; apply NoDup_app_iff in N2 as [N2 _]; exact N2|assumption].
        * exists s. rewrite <- (came_from_t _ _ _ C2). exact S.
    - cbn [bind]. destruct (foldM_error _ _ _ _ F) as [[v vx] [[[k' m'] n'] [A B]]]. unfold draw_node in B. cbn [fst snd] in B.
      destruct (RK v vx A) as [rank K]. unfold dgetE in B. rewrite K in B. cbn [bind] in B.
      pose proof (svg_label_result rank vx) as S. destruct (svg_label rank vx) as [lb|e'] eqn:L; cbn [bind] in B; [discriminate|]. injection B as <-.
      destruct S as [sg [ts [tk [S1 [S2 S3]]]]]. destruct (ALL v vx sg ts tk A S1 S2) as [w [t0 [W1 [W2 W3]]]]. exists w, t0.
      split; [assumption|]. split; [assumption|]. apply (came_from_error _ _ _ _ W3 S3).
  Qed.
End Drawing.
