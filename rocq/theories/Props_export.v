(** Exports of the alignment table (C25, C26, C27, C28, C29, C39). *)
From Verif Require Import Py TokenModel SuffixModel IndexModel GraphModel AlignModel TableModel NearModel ExportModel
  CollateModel Lib GraphSpec TableSpec CollateSpec ExportSpec Samples TopoProof ResultProof OutputProof ExportProof.
From Coq Require Import Permutation QArith.
Open Scope list_scope.
Open Scope nat_scope.

(** ** C25: vertical JSON is the transpose of horizontal JSON *)
Theorem C25_transpose : forall cc topo ratio c o jh, topo_ok topo -> good_sigla c ->
  collate cc topo ratio c (set_vertical o false) = Ok (OJson jh) ->
  exists jv rows cols, collate cc topo ratio c (set_vertical o true) = Ok (OJson jv) /\
    jh = json_result rows (map w_sigil c) /\ jv = json_result cols (map w_sigil c) /\
    length rows = length c /\ Forall (fun l => length l = length cols) rows /\ Forall (fun l => length l = length c) cols /\
    forall i j, entry rows i j = entry cols j i.
Proof. intros cc topo ratio c o jh TO G H. apply (transpose cc topo ratio TO c o jh G H). Qed.
Print Assumptions C25_transpose.

(** The entries are the cells of the table the same call returns with output="table". *)
Theorem C25_cells : forall cc topo ratio c o j, topo_ok topo -> good_sigla c -> o_vertical o = false ->
  collate cc topo ratio c o = Ok (OJson j) ->
  exists t rows, collate cc topo ratio c (set_output o (lit "table")) = Ok (OTable t) /\ j = json_result rows (map w_sigil c) /\
    map r_header (t_rows t) = map w_sigil c /\ Forall2 (fun ro row => Forall2 json_entry (r_cells ro) row) (t_rows t) rows.
Proof.
  intros cc topo ratio c o j TO G Hv H. destruct (collate_pair cc topo ratio c o _ H I) as [t [HT E]]. rewrite Hv in E.
  pose proof (table_good cc topo ratio TO c _ t G HT) as GT. rewrite (export_json_rows c t GT) in E.
  destruct G as [ND NE]. destruct (table_shape cc topo ratio TO c _ t ND NE HT) as [T1 [T2 _]].
  exists t, (json_rows t). split; [exact HT|]. split; [exact E|]. split; [exact T1|]. unfold json_rows.
  clear - T2. induction (t_rows t) as [|ro rows IH]; constructor; [|apply IH; intros r Hr; apply T2; right; assumption].
  destruct (T2 ro (or_introl eq_refl)) as [_ N]. clear - N. induction (r_cells ro) as [|x l IH]; constructor; [|apply IH; intros ts Ht; apply N; right; assumption].
  destruct x as [[|tk ts]|]; cbn [json_entry cell_json]; [destruct (N [] (or_introl eq_refl) eq_refl)|split; [discriminate|reflexivity]|reflexivity].
Qed.
Print Assumptions C25_cells.

(** C40: without a layout argument the JSON output is the horizontal one, one row for each witness. *)
Theorem C40_default_layout : forall cc topo ratio c j, topo_ok topo -> good_sigla c ->
  collate cc topo ratio c (set_output default_options (lit "json")) = Ok (OJson j) ->
  exists t rows, collate cc topo ratio c default_options = Ok (OTable t) /\ j = json_result rows (map w_sigil c) /\
    map r_header (t_rows t) = map w_sigil c /\ Forall2 (fun ro row => Forall2 json_entry (r_cells ro) row) (t_rows t) rows.
Proof. intros cc topo ratio c j TO G H. exact (C25_cells cc topo ratio c (set_output default_options (lit "json")) j TO G eq_refl H). Qed.
Print Assumptions C40_default_layout.

Example C25_case : good_sigla three_witnesses /\ exists jh, collate ascii_cc kahn sample_ratio three_witnesses (set_vertical (plain_options "json") false) = Ok (OJson jh).
Proof.
  split; [split; [repeat constructor; cbn; intuition discriminate|cbn; intuition discriminate]|]. eexists. vm_compute. reflexivity.
Qed.

(** ** C26: reading the csv or tsv output gives the sigla and the texts, with the line breaks
    CR and CR LF replaced by LF: that is why the round trip fails in general. *)
Theorem C26_csv_refuted : exists c s t ro texts, good_sigla c /\ has_texts c /\
  collate ascii_cc kahn sample_ratio c (plain_options "csv") = Ok (OCsv s) /\
  collate ascii_cc kahn sample_ratio c (plain_options "table") = Ok (OTable t) /\
  t_rows t = [ro] /\ Forall2 cell_says (r_cells ro) texts /\ csv_read 44 s <> [r_header ro :: texts].
Proof.
  exists cr_text. eexists. eexists. eexists. exists [97%N :: [13%N]; lit "b"].
  split; [split; [repeat constructor; cbn; intuition discriminate|cbn; intuition discriminate]|]. split.
  { intros w t [<-|[]] Ht. cbn [w_toks In] in Ht. repeat (destruct Ht as [<-|Ht]; [eexists; reflexivity|]); contradiction. }
  split; [vm_compute; reflexivity|]. split; [vm_compute; reflexivity|]. split; [reflexivity|]. split.
  - cbn [r_cells]. repeat constructor; cbn [cell_says]; (eexists; split; [repeat constructor|reflexivity]).
  - vm_compute. discriminate.
Qed.
Print Assumptions C26_csv_refuted.

Definition delimiter (name : str) : N := if str_eqb name (lit "tsv") then 9%N else 44%N.

Theorem C26_csv_partial : forall cc topo ratio c o s, collate cc topo ratio c o = Ok (OCsv s) ->
  exists t, collate cc topo ratio c (set_output o (lit "table")) = Ok (OTable t) /\
    Forall2 (fun ro line => exists texts, Forall2 cell_says (r_cells ro) texts /\ line = map newlines (r_header ro :: texts))
      (t_rows t) (csv_read (delimiter (o_output o)) s).
Proof.
  intros cc topo ratio c o s H. destruct (collate_pair cc topo ratio c o _ H I) as [t [HT E]]. exists t. split; [exact HT|].
  destruct E as [[N E]|[N E]]; apply export_csv_spec in E; rewrite N; exact E.
Qed.
Print Assumptions C26_csv_partial.

Definition no_carriage_return (c : collation) : Prop :=
  forall w, In w c -> ~ In 13%N (w_sigil w) /\
    forall t s, In t (w_toks w) -> dget str_eqb (lit "t") (t0_data t) = Some (JStr s) -> ~ In 13%N s.

Theorem C26_csv_without_cr_partial : forall cc topo ratio c o s, topo_ok topo -> good_sigla c -> no_carriage_return c ->
  collate cc topo ratio c o = Ok (OCsv s) ->
  exists t, collate cc topo ratio c (set_output o (lit "table")) = Ok (OTable t) /\
    Forall2 (fun ro line => exists texts, Forall2 cell_says (r_cells ro) texts /\ line = r_header ro :: texts)
      (t_rows t) (csv_read (delimiter (o_output o)) s).
Proof.
  intros cc topo ratio c o s TO G NC H. destruct (C26_csv_partial cc topo ratio c o s H) as [t [HT F]]. exists t. split; [exact HT|].
  pose proof (table_good cc topo ratio TO c _ t G HT) as GT. destruct (cells_input cc topo ratio TO c _ t G HT) as [_ CI].
  assert (HD : forall ro, In ro (t_rows t) -> ~ In 13%N (r_header ro)).
  { intros ro Hr. rewrite (gt_rows _ _ GT), map_map in Hr. apply in_map_iff in Hr as [w [<- Hw]]. apply (NC w Hw). }
  revert F HD CI. generalize (t_rows t) (csv_read (delimiter (o_output o)) s). clear - NC. intros rows lines F HD CI.
  induction F as [|ro line rows lines [texts [A B]] F IH]; constructor.
  - exists texts. split; [exact A|]. rewrite B. cbn [map]. rewrite newlines_id by (apply HD; left; reflexivity). f_equal.
    assert (T : forall x ts, In (Some ts) (r_cells ro) -> text_of ts x -> ~ In 13%N x).
    { intros x ts Hi [l [L1 ->]] Hc. apply in_concat in Hc as [y [Y1 Y2]].
      assert (Q : exists tk, In tk ts /\ dget str_eqb (lit "t") (tk_data tk) = Some (JStr y)).
      { clear - L1 Y1. induction L1 as [|a b la lb E L IH]; [contradiction|]. destruct Y1 as [<-|Y1]; [exists a; split; [left; reflexivity|assumption]|].
        destruct (IH Y1) as [tk [P Q]]. exists tk. split; [right; assumption|assumption]. }
      destruct Q as [tk [Q1 Q2]]. destruct (CI ro ts tk (or_introl eq_refl) Hi Q1) as [w [t0 [W1 [W2 [W3 W4]]]]].
      rewrite (came_from_text _ _ _ _ W4) in Q2 by (apply lit_neq; reflexivity). destruct (NC w W1) as [_ N]. apply (N t0 y W3 Q2). exact Y2. }
    clear - A T. induction A as [|x y la lb E A IH]; [reflexivity|]. cbn [map]. f_equal.
    + apply newlines_id. destruct x as [ts|]; [apply (T y ts (or_introl eq_refl) E)|]. cbn in E. subst y. intros [].
    + apply IH. intros z ts Hz. apply T. right. assumption.
  - apply IH; [intros r Hr; apply HD; right; assumption|]. intros r ts tk Hr. apply CI. right. assumption.
Qed.
Print Assumptions C26_csv_without_cr_partial.

Example C26_case : good_sigla markup_text /\ no_carriage_return markup_text /\
  exists s, collate ascii_cc kahn sample_ratio markup_text (plain_options "csv") = Ok (OCsv s).
Proof.
  split; [split; [repeat constructor; cbn; intuition discriminate|cbn; intuition discriminate]|]. split.
  - intros w [<-|[<-|[]]]; (split; [cbn; intuition discriminate|]); intros t s Ht; cbn [w_toks In] in Ht;
      repeat (destruct Ht as [<-|Ht]; [intros E; vm_compute in E; injection E as <-; cbn; intuition discriminate|]); contradiction.
  - eexists. vm_compute. reflexivity.
Qed.

(** ** C27: the XML export *)
Theorem C27_xml : forall cc topo ratio c o s, topo_ok topo -> good_sigla c -> collate cc topo ratio c o = Ok (OXml s) ->
  exists t cols, collate cc topo ratio c (set_output o (lit "table")) = Ok (OTable t) /\
    Forall2 readings_of (t_columns t) cols /\ xml_events s = xml_document cols.
Proof.
  intros cc topo ratio c o s TO G H. destruct (collate_pair cc topo ratio c o _ H I) as [t [HT E]].
  pose proof (table_good cc topo ratio TO c _ t G HT) as GT. destruct (export_xml_spec t s) as [cols [A B]]; [|exact E|].
  - apply Forall_impl with (2 := gt_keys _ _ GT). intros col [N _]. exact N.
  - exists t, cols. auto.
Qed.
Print Assumptions C27_xml.

Example C27_case : good_sigla markup_text /\ exists s, collate ascii_cc kahn sample_ratio markup_text (plain_options "xml") = Ok (OXml s).
Proof.
  split; [split; [repeat constructor; cbn; intuition discriminate|cbn; intuition discriminate]|]. eexists. vm_compute. reflexivity.
Qed.

(** ** C28: the TEI export.  With indentation only tabs and line feeds are added. *)
Theorem C28_tei : forall cc topo ratio c o s, topo_ok topo -> good_sigla c -> collate cc topo ratio c o = Ok (OTei s) ->
  exists t parts, collate cc topo ratio c (set_output o (lit "table")) = Ok (OTable t) /\
    Forall2 (fun col p => exists rs, readings_of col rs /\ part_right cc (map w_sigil c) rs (fst p)) (t_columns t) parts /\
    if o_indent o then without_chars [9%N; 10%N] (xml_events s) = without_chars [9%N; 10%N] (tei_document parts)
    else xml_events s = tei_document parts.
Proof.
  intros cc topo ratio c o s TO G H. destruct (tei_of cc topo ratio TO c o s G H) as [t [ps [A [B C]]]]. exists t, ps. split; [exact A|]. split; [|exact C].
  clear - B. induction B as [|a b la lb [rs [R1 [R2 _]]] B IH]; constructor; [exists rs; auto|assumption].
Qed.
Print Assumptions C28_tei.

Example C28_case : good_sigla markup_text /\ exists s, collate ascii_cc kahn sample_ratio markup_text (plain_options "tei") = Ok (OTei s) /\
  xml_events s = tei_document [(Agreed (lit "x,y"), true);
    (Variants [(34%N :: lit "&lt;", [lit "A<"]); (lit "<b>", [lit "B"])], false); (Variants [([], [lit "A<"])], false)].
Proof.
  split; [split; [repeat constructor; cbn; intuition discriminate|cbn; intuition discriminate]|]. eexists. split; vm_compute; reflexivity.
Qed.

(** ** C29: a separating blank is written if a reading ends in a blank; not if it ends in a tab or
    a line feed, because the program compares with raw strings. *)
Theorem C29_separation_refuted : exists c s t col rs, plain_collation ascii_cc tab_text = Ok c /\ good_sigla c /\
  collate ascii_cc kahn sample_ratio c (plain_options "tei") = Ok (OTei s) /\
  collate ascii_cc kahn sample_ratio c (plain_options "table") = Ok (OTable t) /\
  In col (t_columns t) /\ readings_of col rs /\ Forall (fun r => ends_with (snd r) [9%N]) rs /\
  xml_events s = tei_document [(Agreed (lit "ab"), false)].
Proof.
  destruct (plain_collation ascii_cc tab_text) as [c|] eqn:E; [|vm_compute in E; discriminate]. vm_compute in E. injection E as <-.
  eexists. eexists. eexists. eexists. exists [(lit "A", 97%N :: [9%N]); (lit "B", 97%N :: [9%N])]. split; [reflexivity|].
  split; [split; [repeat constructor; cbn; intuition discriminate|cbn; intuition discriminate]|].
  split; [vm_compute; reflexivity|]. split; [vm_compute; reflexivity|]. split; [left; reflexivity|]. split; [|split].
  - split; [|split].
    + cbn [map fst increasing]. split; [constructor; [|constructor]|split; [constructor|exact I]]. apply SuffixProof.str_ltb_ok. vm_compute. reflexivity.
    + intros sg. cbn. tauto.
    + intros sg x [H|[H|[]]]; injection H as <- <-; eexists; (split; [cbn; eauto|]); eexists; (split; [repeat constructor|reflexivity]).
  - repeat constructor; exists [97%N]; reflexivity.
  - vm_compute. reflexivity.
Qed.
Print Assumptions C29_separation_refuted.

Theorem C29_separation_partial : forall cc topo ratio c o s, topo_ok topo -> good_sigla c -> o_indent o = false ->
  collate cc topo ratio c o = Ok (OTei s) ->
  exists t parts, collate cc topo ratio c (set_output o (lit "table")) = Ok (OTable t) /\
    Forall2 (fun col p => exists rs, readings_of col rs /\
      (snd p = true <-> exists sg x e, In (sg, x) rs /\ In e [lit " "; lit "\u0009"; lit "\000a"] /\ ends_with x e)) (t_columns t) parts /\
    xml_events s = tei_document parts.
Proof.
  intros cc topo ratio c o s TO G Hi H. destruct (tei_of cc topo ratio TO c o s G H) as [t [ps [A [B C]]]]. rewrite Hi in C. exists t, ps. split; [exact A|]. split; [|exact C].
  clear - B. induction B as [|a b la lb [rs [R1 [_ R2]]] B IH]; constructor; [exists rs; auto|assumption].
Qed.
Print Assumptions C29_separation_partial.

(** ** C39: token data in the JSON output *)
Theorem C39_token_data : forall cc topo ratio c o j, topo_ok topo -> good_sigla c -> no_internal_keys c ->
  o_near o = false -> o_vertical o = false -> collate cc topo ratio c o = Ok (OJson j) ->
  exists rows pos, j = json_result rows (map w_sigil c) /\ NoDup (concat pos) /\ length rows = length c /\ length pos = length c /\
    forall i w, nth_error c i = Some w -> exists row ps, nth_error rows i = Some row /\ nth_error pos i = Some ps /\ length ps = length (w_toks w) /\
      json_tokens row = map (fun '(t, p) => json_token (w_sigil w) t p) (combine (w_toks w) ps).
Proof. intros cc topo ratio c o j TO G NK Hn Hv H. apply (json_tokens_spec cc topo ratio TO c o j G NK Hn Hv H). Qed.
Print Assumptions C39_token_data.

(** With near matching tokens can get lost (C21); those that are there are the user's. *)
Theorem C39_near_token_data : forall cc topo ratio c o j, topo_ok topo -> good_sigla c -> no_internal_keys c -> o_vertical o = false ->
  collate cc topo ratio c o = Ok (OJson j) ->
  exists rows, j = json_result rows (map w_sigil c) /\ length rows = length c /\
    forall i w row x, nth_error c i = Some w -> nth_error rows i = Some row -> In x (json_tokens row) ->
      exists t p, In t (w_toks w) /\ x = json_token (w_sigil w) t p.
Proof. intros cc topo ratio c o j TO G NK Hv H. apply (json_token_data cc topo ratio TO c o j G NK Hv H). Qed.
Print Assumptions C39_near_token_data.

Example C39_case : good_sigla shifted_tags /\ no_internal_keys shifted_tags /\
  exists j, collate ascii_cc kahn sample_ratio shifted_tags (plain_options "json") = Ok (OJson j).
Proof.
  split; [split; [repeat constructor; cbn; intuition discriminate|cbn; intuition discriminate]|]. split.
  - intros w t Hw Ht. cbn [shifted_tags In] in Hw. repeat (destruct Hw as [<-|Hw]; [cbn [w_toks In] in Ht|]); try contradiction;
      repeat (destruct Ht as [<-|Ht]; [split; vm_compute; intuition discriminate|]); contradiction.
  - eexists. vm_compute. reflexivity.
Qed.
