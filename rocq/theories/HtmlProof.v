(** Proofs about the html2 output and the printed table. *)
From Verif Require Import Py TokenModel TokenSpec SuffixModel IndexModel GraphModel AlignModel TableModel NearModel ExportModel CollateModel
  Lib GraphSpec TableSpec CollateSpec ExportSpec HtmlModel HtmlSpec TokenProof OutputProof NearBest ExportProof DrawProof.
From Coq Require Import Lia QArith.
Open Scope list_scope.
Open Scope nat_scope.

Lemma read_plain_text : forall s rest, no_markup s -> xml_reader InText (s ++ rest) = chars s ++ xml_reader InText rest.
Proof.
  intros s rest. induction s as [|c s IH]; intros [N1 [N2 N3]]; [reflexivity|]. cbn [app xml_reader chars map]. cbn [In] in N1, N2, N3.
  destruct (N.eqb_spec c 60) as [->|_]; [tauto|]. destruct (N.eqb_spec c 38) as [->|_]; [tauto|]. destruct (N.eqb_spec c 62) as [->|_]; [tauto|].
  rewrite IH by (unfold no_markup; tauto). reflexivity.
Qed.

Lemma heading_reads : forall sg rest, no_markup sg -> sg <> [] ->
  xml_reader InText (html_cell true None sg ++ rest) = heading sg ++ xml_reader InText rest.
Proof.
  intros sg rest N NE. unfold html_cell. destruct sg as [|c sg]; [congruence|]. rewrite <- !app_assoc.
  change (xml_reader InText (lit "  <" ++ lit "TH" ++ [] ++ lit ">" ++ (c :: sg) ++ lit "</" ++ lit "TH" ++ lit ">" ++ lf ++ rest)) with
    (Char 32 :: Char 32 :: Begin (lit "TH") [] :: xml_reader InText ((c :: sg) ++ lit "</" ++ lit "TH" ++ lit ">" ++ lf ++ rest)).
  rewrite read_plain_text by assumption. unfold heading, element. rewrite <- !app_assoc. cbn [app]. rewrite <- !app_assoc. reflexivity.
Qed.

Lemma tag_td : forall b rest, b = lit "FF0000" \/ b = lit "00FFFF" ->
  xml_reader InText (lit "  <" ++ lit "TD" ++ (lit " bgcolor=" ++ dq ++ b ++ dq) ++ lit ">" ++ rest) =
  Char 32 :: Char 32 :: Begin (lit "TD") [(lit "bgcolor", b)] :: xml_reader InText rest.
Proof. intros b rest [->| ->]; reflexivity. Qed.

Lemma coloured_reads : forall b s rest, b = lit "FF0000" \/ b = lit "00FFFF" -> no_markup s ->
  xml_reader InText (html_cell false (Some b) s ++ rest) = coloured (b, s) ++ xml_reader InText rest.
Proof.
  intros b s rest Hb N. unfold html_cell. rewrite <- !app_assoc.
  pose proof (tag_td b (match s with [] => lit "&nbsp;" | _ => s end ++ lit "</" ++ lit "TD" ++ lit ">" ++ lf ++ rest) Hb) as T.
  rewrite <- !app_assoc in T. rewrite T. clear T. unfold coloured, element. cbn [fst snd]. rewrite <- !app_assoc. cbn [app]. rewrite <- !app_assoc.
  change (chars (lit "  ")) with [Char 32; Char 32]. cbn [app]. do 3 f_equal. destruct s as [|c s]; [reflexivity|]. rewrite read_plain_text by assumption. reflexivity.
Qed.

Lemma line_reads : forall cells ev rest, (forall r, xml_reader InText (concat cells ++ r) = ev ++ xml_reader InText r) ->
  xml_reader InText (html_row cells ++ rest) = line ev ++ xml_reader InText rest.
Proof.
  intros cells ev rest. unfold html_row. generalize (concat cells). intros body H. rewrite <- !app_assoc.
  change (xml_reader InText (lit " <TR>" ++ lf ++ body ++ lit " </TR>" ++ lf ++ rest)) with
    (Char 32 :: Begin (lit "TR") [] :: Char 10 :: xml_reader InText (body ++ lit " </TR>" ++ lf ++ rest)).
  rewrite H. unfold line, element. rewrite <- !app_assoc. cbn [app chars map]. rewrite <- !app_assoc. reflexivity.
Qed.

Lemma concat_reads : forall {A} (f : A -> str) (g : A -> list event) l rest,
  (forall a r, In a l -> xml_reader InText (f a ++ r) = g a ++ xml_reader InText r) ->
  xml_reader InText (concat (map f l) ++ rest) = flat_map g l ++ xml_reader InText rest.
Proof. intros A f g l rest H. rewrite <- flat_map_concat_map. apply flat_map_reads. exact H. Qed.

Definition td (x : str * str) : str := html_cell false (Some (fst x)) (snd x).
Lemma html_reads : forall sigla rows, sigla <> [] -> Forall (fun sg => no_markup sg /\ sg <> []) sigla ->
  Forall (Forall (fun x => (fst x = lit "FF0000" \/ fst x = lit "00FFFF") /\ no_markup (snd x))) rows ->
  xml_events (html_table sigla (map (map td) rows)) = html_document sigla rows.
Proof.
  intros sigla rows NE FS FR. unfold xml_events, html_table, html_document.
  assert (H : forall rest, xml_reader InText (lit "<TABLE border=" ++ dq ++ lit "1" ++ dq ++ lit " style=" ++ dq ++ lit "border: 1px solid #000000; border-collapse: collapse;" ++ dq ++
    lit " cellpadding=" ++ dq ++ lit "4" ++ dq ++ lit ">" ++ lf ++ rest) =
    Begin (lit "TABLE") [(lit "border", lit "1"); (lit "style", lit "border: 1px solid #000000; border-collapse: collapse;"); (lit "cellpadding", lit "4")] :: Char 10 :: xml_reader InText rest) by reflexivity.
  rewrite H. clear H. unfold element. cbn [app chars map]. do 2 f_equal.
  destruct sigla as [|sg sigla]; [congruence|]. rewrite (line_reads _ (flat_map heading (sg :: sigla))).
  - rewrite <- !app_assoc. f_equal. rewrite map_map. rewrite (concat_reads _ (fun r => line (flat_map coloured r))); [reflexivity|].
    intros r rest Hr. apply line_reads. intros r'. apply concat_reads. intros x r'' Hx. rewrite Forall_forall in FR. specialize (FR r Hr). rewrite Forall_forall in FR.
    destruct (FR x Hx) as [F1 F2]. unfold td. rewrite (coloured_reads (fst x) (snd x) r'' F1 F2). destruct x. reflexivity.
  - intros r. apply concat_reads. intros x r' Hx. rewrite Forall_forall in FS. destruct (FS x Hx) as [F1 F2]. apply heading_reads; assumption.
Qed.

Lemma shown_text_ok : forall x s, shown_text x = Ok s -> match x with Some (t :: ts) => text_of (t :: ts) s | _ => s = lit "-" end.
Proof.
  intros [[|t ts]|] s H; cbn [shown_text] in H; [apply ok_inj in H; congruence|apply cell_text_ok; assumption|apply ok_inj in H; congruence].
Qed.

Section Html2.
  Variables (cc : cclass) (topo : graph -> res (list vid)) (ratio : str -> str -> Q) (fill : str -> str).
  Hypothesis TO : topo_ok topo.

  Definition colour (col : column) : str := if c_variant col then lit "FF0000" else lit "00FFFF".

  Theorem html2_inv : forall c o s, good_sigla c -> collate_html2 fill cc topo ratio c o = Ok s ->
    o_output o = lit "html2" /\ exists t rows, collate cc topo ratio c (set_output o (lit "table")) = Ok (OTable t) /\
      Forall2 (fun col row => Forall2 (fun w x => fst x = colour col /\ exists y, shows_text col (w_sigil w) y /\ snd x = fill y) c row) (t_columns t) rows /\
      s = html_table (map w_sigil c) (map (map td) rows).
  Proof.
    intros c o s G H. unfold collate_html2 in H. apply bind_ok in H as [x [H1 H2]]. destruct x as [| | | |t| | | |]; try discriminate.
    destruct (collate_inv cc topo ratio c o _ H1) as [g0 [r0 [_ [RO _]]]]. split; [exact RO|].
    destruct (collate_pair cc topo ratio c o _ H1 I) as [t' [HT E]]. cbn in E. subst t'. exists t.
    pose proof (table_good cc topo ratio TO c _ t G HT) as GT.
    unfold html2 in H2. apply bind_ok in H2 as [rows [H2 H3]]. apply ok_inj in H3. subst s.
    apply mapM_Forall2 in H2.
    assert (CELL : forall col sg x, In col (t_columns t) -> html2_cell fill col sg = Ok x ->
      exists y, shows_text col sg y /\ x = td (colour col, fill y)).
    { intros col sg x Hc E. unfold html2_cell in E. apply bind_ok in E as [y [E1 E2]]. apply ok_inj in E2. exists y. split; [|rewrite <- E2; reflexivity].
      apply shown_text_ok in E1. destruct (dget str_eqb sg (c_cells col)) as [[|tk ts]|] eqn:D.
      - apply (dget_In _ str_eqb_ok) in D. destruct (gt_cells _ _ GT col sg [] Hc D eq_refl).
      - apply (dget_In _ str_eqb_ok) in D. apply (shows_tokens col sg (tk :: ts)); assumption.
      - rewrite E1. apply shows_hyphen. apply (dget_None _ str_eqb_ok). assumption. }
    assert (ROW : forall col r, In col (t_columns t) -> mapM (html2_cell fill col) (map w_sigil c) = Ok r ->
      exists row, Forall2 (fun w x => fst x = colour col /\ exists y, shows_text col (w_sigil w) y /\ snd x = fill y) c row /\ r = map td row).
    { intros col r Hc E. apply mapM_Forall2 in E. clear - CELL Hc E. revert r E. induction c as [|w c IH]; intros r E; inversion E as [|? x ? r' E1 E2]; subst.
      - exists []. split; [constructor|reflexivity].
      - destruct (CELL col (w_sigil w) x Hc E1) as [y [Y1 ->]]. destruct (IH r' E2) as [row [R1 ->]]. exists ((colour col, fill y) :: row).
        split; [constructor; [split; [reflexivity|exists y; auto]|assumption]|reflexivity]. }
    clear - ROW H2 HT. revert ROW H2. generalize (t_columns t). intros cols ROW F.
    assert (X : exists rows', Forall2 (fun col row => Forall2 (fun w x => fst x = colour col /\ exists y, shows_text col (w_sigil w) y /\ snd x = fill y) c row) cols rows' /\ rows = map (map td) rows').
    { induction F as [|col r cols rows E F IH]; [exists []; split; [constructor|reflexivity]|].
      destruct (ROW col r (or_introl eq_refl) E) as [row [X1 ->]]. destruct IH as [rows' [R1 ->]]; [intros col' r' Hc'; apply ROW; right; assumption|].
      exists (row :: rows'). split; [constructor; assumption|reflexivity]. }
    destruct X as [rows' [X1 X2]]. exists rows'. split; [exact HT|]. split; [exact X1|]. rewrite X2. reflexivity.
  Qed.

  Lemma fill_markup : forall s, wraps fill -> no_markup s -> no_markup (fill s).
  Proof.
    intros s Hw [N1 [N2 N3]]. repeat split; intros C; apply Hw in C as [C|[C|C]]; try discriminate; contradiction.
  Qed.
  Lemma shown_markup : forall c o t col sg y, good_sigla c -> without_markup c -> collate cc topo ratio c o = Ok (OTable t) -> In col (t_columns t) ->
    shows_text col sg y -> no_markup y.
  Proof.
    intros c o t col sg y G NM HT Hc [ts x Hi [l [L ->]]|_]; [|unfold no_markup; cbn; intuition discriminate].
    destruct (cells_input cc topo ratio TO c o t G HT) as [CI _].
    assert (F : Forall no_markup l).
    { rewrite Forall_forall. intros z Hz. destruct (Forall2_In_r _ _ _ _ L Hz) as [tk [K1 K2]]. destruct (CI col sg ts tk Hc Hi K1) as [w [t0 [W1 [W2 [W3 W4]]]]].
      rewrite (came_from_text _ _ _ _ W4) in K2 by (apply lit_neq; reflexivity). apply (proj2 (NM w W1) t0 z W3 K2). }
    clear - F. induction F as [|z l [Z1 [Z2 Z3]] F [I1 [I2 I3]]]; [unfold no_markup; cbn; tauto|]. cbn [concat]. unfold no_markup. rewrite !in_app_iff. tauto.
  Qed.

  Theorem html2_document : forall c o s, wraps fill -> good_sigla c -> without_markup c -> collate_html2 fill cc topo ratio c o = Ok s ->
    exists t rows, collate cc topo ratio c (set_output o (lit "table")) = Ok (OTable t) /\
      Forall2 (fun col row => Forall2 (fun w x => fst x = colour col /\ exists y, shows_text col (w_sigil w) y /\ snd x = fill y) c row) (t_columns t) rows /\
      xml_events s = html_document (map w_sigil c) rows.
  Proof.
    intros c o s Hw G NM H. destruct (html2_inv c o s G H) as [_ [t [rows [HT [F ->]]]]]. exists t, rows. split; [exact HT|]. split; [exact F|].
    apply html_reads.
    - intros C. apply map_eq_nil in C. destruct (collate_not_empty cc topo ratio c _ _ HT) as [N _]. contradiction.
    - rewrite Forall_map, Forall_forall. intros w Hi. split; [apply (NM w Hi)|]. intros C. apply (proj2 G). apply in_map_iff. exists w. auto.
    - rewrite Forall_forall. intros row Hr. rewrite Forall_forall. intros x Hx. destruct (Forall2_In_r _ _ _ _ F Hr) as [col [Hc Fr]].
      destruct (Forall2_In_r _ _ _ _ Fr Hx) as [w [Hi [E1 [y [Y1 Y2]]]]]. split; [rewrite E1; unfold colour; destruct (c_variant col); auto|].
      rewrite Y2. apply fill_markup; [assumption|]. apply (shown_markup c _ t col (w_sigil w) y G NM HT Hc Y1).
  Qed.

  Lemma shown_total : forall t, token_texts t ->
    (forall col sg, In col (t_columns t) -> exists s, shown_text (dget str_eqb sg (c_cells col)) = Ok s) /\
    (forall ro x, In ro (t_rows t) -> In x (r_cells ro) -> exists s, shown_text x = Ok s).
  Proof.
    intros t [T1 T2]. split.
    - intros col sg Hc. destruct (dget str_eqb sg (c_cells col)) as [[|tk ts]|] eqn:D; cbn [shown_text]; [eauto| |eauto].
      apply (dget_In _ str_eqb_ok) in D. apply cell_text_total. intros y Hy. apply (T1 col sg (tk :: ts) y Hc D Hy).
    - intros ro [[|tk ts]|] Hr Hx; cbn [shown_text]; [eauto| |eauto]. apply cell_text_total. intros y Hy. apply (T2 ro (tk :: ts) y Hr Hx Hy).
  Qed.
End Html2.

(** ** The printed table *)
Lemma shown_prints : forall ro l, (forall ts, In (Some ts) (r_cells ro) -> ts <> []) -> mapM shown_text (r_cells ro) = Ok l -> Forall2 prints (r_cells ro) l.
Proof.
  intros ro l N E. apply mapM_Forall2 in E. induction E as [|x s xs l H F IH]; constructor; [|apply IH; intros ts Ht; apply N; right; assumption].
  apply shown_text_ok in H. destruct x as [[|tk ts]|]; [destruct (N [] (or_introl eq_refl) eq_refl)|exact H|exact H].
Qed.
Lemma Forall2_self_map : forall {A B} (P : A -> B -> Prop) (f : A -> B) l, (forall a, P a (f a)) -> Forall2 P l (map f l).
Proof. intros A B P f l H. induction l; constructor; auto. Qed.

Section Printed.
  Variables (cc : cclass) (fill : str -> str).
  Lemma print_horizontal : forall t p, (forall ro, In ro (t_rows t) -> forall ts, In (Some ts) (r_cells ro) -> ts <> []) ->
    print_table fill cc (lit "horizontal") t = Ok p ->
    exists rows, p = PRows rows /\
      Forall2 (fun ro l => exists texts shown, l = r_header ro :: shown /\ Forall2 prints (r_cells ro) texts /\ Forall2 (without_trailing_space cc) texts shown) (t_rows t) rows.
  Proof.
    intros t p N H. unfold print_table in H. change (str_eqb (lit "horizontal") (lit "vertical")) with false in H. cbv iota in H.
    rewrite (proj2 (str_eqb_ok _ _) eq_refl) in H. apply bind_ok in H as [rows [H1 H2]]. apply ok_inj in H2. subst p. exists rows. split; [reflexivity|].
    apply mapM_Forall2 in H1. induction H1 as [|ro l ros rows E F IH]; constructor; [|apply IH; intros r Hr; apply N; right; assumption].
    unfold print_row in E. apply bind_ok in E as [x [E1 E2]]. apply ok_inj in E2. subst l. exists x, (map (rstrip cc) x). split; [reflexivity|].
    split; [apply shown_prints; [apply N; left; reflexivity|assumption]|]. apply Forall2_self_map. intros a. apply rstrip_spec.
  Qed.
  Lemma print_vertical : forall t p, (forall ro, In ro (t_rows t) -> forall ts, In (Some ts) (r_cells ro) -> ts <> []) ->
    print_table fill cc (lit "vertical") t = Ok p ->
    exists columns, p = PColumns columns /\
      Forall2 (fun ro l => exists texts, l = (r_header ro, map fill texts) /\ Forall2 prints (r_cells ro) texts) (t_rows t) columns.
  Proof.
    intros t p N H. unfold print_table in H. rewrite (proj2 (str_eqb_ok _ _) eq_refl) in H. apply bind_ok in H as [rows [H1 H2]]. apply ok_inj in H2. subst p. exists rows. split; [reflexivity|].
    apply mapM_Forall2 in H1. induction H1 as [|ro l ros rows E F IH]; constructor; [|apply IH; intros r Hr; apply N; right; assumption].
    unfold print_column in E. apply bind_ok in E as [x [E1 E2]]. apply ok_inj in E2. subst l. exists x. split; [reflexivity|].
    apply shown_prints; [apply N; left; reflexivity|assumption].
  Qed.
  Lemma print_total : forall t layout, token_texts t -> layout = lit "horizontal" \/ layout = lit "vertical" -> exists p, print_table fill cc layout t = Ok p.
  Proof.
    intros t layout TT L. destruct (shown_total t TT) as [_ S].
    assert (A : forall ro, In ro (t_rows t) -> exists l, mapM shown_text (r_cells ro) = Ok l) by (intros ro Hr; apply mapM_total; intros x Hx; apply (S ro x Hr Hx)).
    unfold print_table. destruct L as [->| ->].
    - change (str_eqb (lit "horizontal") (lit "vertical")) with false. cbv iota. rewrite (proj2 (str_eqb_ok _ _) eq_refl).
      destruct (mapM_total (print_row cc) (t_rows t)) as [l ->]; [|eexists; reflexivity]. intros ro Hr. destruct (A ro Hr) as [x E]. unfold print_row. rewrite E. eexists. reflexivity.
    - rewrite (proj2 (str_eqb_ok _ _) eq_refl).
      destruct (mapM_total (print_column fill) (t_rows t)) as [l ->]; [|eexists; reflexivity]. intros ro Hr. destruct (A ro Hr) as [x E]. unfold print_column. rewrite E. eexists. reflexivity.
  Qed.
End Printed.
