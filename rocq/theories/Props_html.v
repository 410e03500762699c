(** Properties C54 (output="html2") and C55 (printing a table). *)
From Verif Require Import Py TokenModel TokenSpec SuffixModel IndexModel GraphModel AlignModel TableModel NearModel ExportModel
  CollateModel Lib GraphSpec TableSpec CollateSpec ExportSpec Samples TopoProof ResultProof OutputProof NearProof ExportProof HtmlModel HtmlSpec HtmlProof.
From Coq Require Import QArith.
Open Scope list_scope.
Open Scope nat_scope.

(** ** C54: html2 shows the columns of the table one below the other, with the witnesses side by
    side in the order of the collation; red cells for columns with variation. *)
Theorem C54_html2_partial : forall cc topo ratio fill c o s, topo_ok topo -> wraps fill -> good_sigla c -> without_markup c ->
  collate_html2 fill cc topo ratio c o = Ok s ->
  exists t rows, collate cc topo ratio c (set_output o (lit "table")) = Ok (OTable t) /\
    Forall2 (fun col row => Forall2 (fun w x => fst x = (if c_variant col then lit "FF0000" else lit "00FFFF") /\
      exists y, shows_text col (w_sigil w) y /\ snd x = fill y) c row) (t_columns t) rows /\
    xml_events s = html_document (map w_sigil c) rows.
Proof. intros cc topo ratio fill c o s TO Hw G NM H. apply (html2_document cc topo ratio fill TO c o s Hw G NM H). Qed.
Print Assumptions C54_html2_partial.

Theorem C54_total : forall cc topo ratio fill c o, topo_ok topo -> c <> [] -> good_sigla c -> no_empty_witness c ->
  ~ marker_clash (o_filter o) c -> o_astar o = false -> o_transp o = false -> (o_near o = true -> o_segmentation o = false) ->
  o_output o = lit "html2" -> has_texts c -> exists s, collate_html2 fill cc topo ratio c o = Ok s.
Proof.
  intros cc topo ratio fill c o TO N G NE NM O1 O2 O3 HO HT.
  destruct (succeeds_all cc topo ratio TO c o N G NE NM) as [x E]; [rewrite HO; cbn; tauto|intros _; exact HT|assumption..|].
  destruct (collate_inv cc topo ratio c o _ E) as [g0 [r0 [_ [RO _]]]]. rewrite HO in RO.
  assert (X : exists t, x = OHtml2 t).
  { destruct x as [b g|g|j|t|t|t|s|s|s]; cbn [representation_ok] in RO; try (exists t; reflexivity); exfalso; try destruct b;
      repeat (destruct RO as [RO|RO]); vm_compute in RO; discriminate. }
  destruct X as [t ->]. unfold collate_html2. rewrite E. cbn [bind].
  destruct (collate_pair cc topo ratio c o _ E I) as [t' [HTa E']]. cbn in E'. subst t'.
  destruct (shown_total t (table_texts cc topo ratio TO c _ t G HT HTa)) as [ST _]. unfold html2.
  destruct (mapM_total (fun col => mapM (html2_cell fill col) (map w_sigil c)) (t_columns t)) as [rows ->]; [|eexists; reflexivity].
  intros col Hc. apply mapM_total. intros sg _. destruct (ST col sg Hc) as [y Y]. unfold html2_cell. rewrite Y. eexists. reflexivity.
Qed.
Print Assumptions C54_total.

Definition html_options := plain_options "html2".
(** Refuted: "different texts look different".  A witness without a word looks like one with a hyphen. *)
Theorem C54_hyphen_refuted : exists c1 c2, good_sigla c1 /\ good_sigla c2 /\
  map (fun w => length (w_toks w)) c1 <> map (fun w => length (w_toks w)) c2 /\
  forall fill, exists s, collate_html2 fill ascii_cc kahn sample_ratio c1 html_options = Ok s /\ collate_html2 fill ascii_cc kahn sample_ratio c2 html_options = Ok s.
Proof.
  exists [words "A" ["a"; "b"]; words "B" ["a"]], [words "A" ["a"; "b"]; words "B" ["a"; "-"]].
  split; [split; [repeat constructor; cbn; intuition discriminate|cbn; intuition discriminate]|].
  split; [split; [repeat constructor; cbn; intuition discriminate|cbn; intuition discriminate]|]. split; [discriminate|].
  intros fill. eexists. split; [vm_compute; reflexivity|vm_compute; reflexivity].
Qed.
Print Assumptions C54_hyphen_refuted.

(** Refuted: "one cell for every witness".  Texts are not escaped: a text of eleven characters, which
    is not wrapped, gives two cells. *)
Theorem C54_markup_refuted : exists c t, good_sigla c /\ length c = 1 /\
  collate ascii_cc kahn sample_ratio c (plain_options "table") = Ok (OTable t) /\ length (t_columns t) = 1 /\
  forall fill, fill (lit "a</TD><TD>b") = lit "a</TD><TD>b" ->
    exists s, collate_html2 fill ascii_cc kahn sample_ratio c html_options = Ok s /\ count_begin (lit "TD") (xml_events s) = 2.
Proof.
  exists [words "A" ["a</TD><TD>b"]]. eexists. split; [split; [repeat constructor; cbn; intuition discriminate|cbn; intuition discriminate]|]. split; [reflexivity|].
  split; [vm_compute; reflexivity|]. split; [reflexivity|]. intros fill Hf.
  exists (html_table [lit "A"] [[html_cell false (Some (lit "00FFFF")) (lit "a</TD><TD>b")]]). split; [|vm_compute; reflexivity].
  rewrite <- Hf. vm_compute. reflexivity.
Qed.
Print Assumptions C54_markup_refuted.

Example C54_case : wraps (fun s => s) /\ good_sigla three_witnesses /\ without_markup three_witnesses /\
  exists s, collate_html2 (fun s => s) ascii_cc kahn sample_ratio three_witnesses html_options = Ok s /\ count_begin (lit "TD") (xml_events s) = 18.
Proof.
  split; [intros s x Hx; auto|]. split; [split; [repeat constructor; cbn; intuition discriminate|cbn; intuition discriminate]|]. split.
  - intros w [<-|[<-|[<-|[]]]]; (split; [unfold no_markup; cbn; intuition discriminate|]); intros t s Ht; cbn [w_toks words three_witnesses map In] in Ht;
      repeat (destruct Ht as [<-|Ht]; [intros E; vm_compute in E; injection E as <-; unfold no_markup; cbn; intuition discriminate|]); contradiction.
  - eexists. split; vm_compute; reflexivity.
Qed.

(** ** C55: printing the table *)
Lemma Forall2_len : forall {A B} (P : A -> B -> Prop) l l', Forall2 P l l' -> length l = length l'.
Proof. intros A B P l l' F. induction F; cbn; congruence. Qed.
Theorem C55_horizontal_partial : forall cc topo ratio fill c o t p, topo_ok topo -> good_sigla c -> collate cc topo ratio c o = Ok (OTable t) ->
  print_table fill cc (lit "horizontal") t = Ok p ->
  exists rows, p = PRows rows /\
    Forall2 (fun w line => exists ro texts shown, In ro (t_rows t) /\ r_header ro = w_sigil w /\ line = w_sigil w :: shown /\
      length shown = length (t_columns t) /\ Forall2 prints (r_cells ro) texts /\ Forall2 (without_trailing_space cc) texts shown) c rows.
Proof.
  intros cc topo ratio fill c o t p TO [ND NE] H HP. destruct (table_shape cc topo ratio TO c o t ND NE H) as [T1 [T2 _]].
  destruct (print_horizontal cc fill t p) as [rows [E F]]; [intros ro Hr; apply (T2 ro Hr)|exact HP|]. exists rows. split; [exact E|].
  assert (L : forall ro, In ro (t_rows t) -> length (r_cells ro) = length (t_columns t)) by (intros ro Hr; apply (T2 ro Hr)).
  assert (I : forall ro, In ro (t_rows t) -> In ro (t_rows t)) by auto. clear E HP H ND NE T2. revert c rows T1 F L I.
  generalize (t_rows t) at 1 2 3 4. intros ros. induction ros as [|ro ros IH]; intros [|w c] rows T1 F L I; try discriminate; inversion F as [|? line ? rows' Fl F']; subst; constructor.
  - cbn [map] in T1. injection T1 as T1 T1'. destruct Fl as [texts [shown [-> [A B]]]]. exists ro, texts, shown. split; [apply I; left; reflexivity|]. split; [assumption|].
    rewrite T1. split; [reflexivity|]. split; [|auto]. rewrite <- (L ro (or_introl eq_refl)), (Forall2_len _ _ _ A), (Forall2_len _ _ _ B). reflexivity.
  - cbn [map] in T1. injection T1 as _ T1. apply IH; auto; intros r Hr; [apply L|apply I]; right; assumption.
Qed.
Print Assumptions C55_horizontal_partial.

Theorem C55_vertical_partial : forall cc topo ratio fill c o t p, topo_ok topo -> good_sigla c -> collate cc topo ratio c o = Ok (OTable t) ->
  print_table fill cc (lit "vertical") t = Ok p ->
  exists columns, p = PColumns columns /\
    Forall2 (fun w l => exists ro texts, In ro (t_rows t) /\ r_header ro = w_sigil w /\ l = (w_sigil w, map fill texts) /\
      length texts = length (t_columns t) /\ Forall2 prints (r_cells ro) texts) c columns.
Proof.
  intros cc topo ratio fill c o t p TO [ND NE] H HP. destruct (table_shape cc topo ratio TO c o t ND NE H) as [T1 [T2 _]].
  destruct (print_vertical cc fill t p) as [rows [E F]]; [intros ro Hr; apply (T2 ro Hr)|exact HP|]. exists rows. split; [exact E|].
  assert (L : forall ro, In ro (t_rows t) -> length (r_cells ro) = length (t_columns t)) by (intros ro Hr; apply (T2 ro Hr)).
  assert (I : forall ro, In ro (t_rows t) -> In ro (t_rows t)) by auto. clear E HP H ND NE T2. revert c rows T1 F L I.
  generalize (t_rows t) at 1 2 3 4. intros ros. induction ros as [|ro ros IH]; intros [|w c] rows T1 F L I; try discriminate; inversion F as [|? line ? rows' Fl F']; subst; constructor.
  - cbn [map] in T1. injection T1 as T1 T1'. destruct Fl as [texts [-> A]]. exists ro, texts. split; [apply I; left; reflexivity|]. split; [assumption|].
    rewrite T1. split; [reflexivity|]. split; [|auto]. rewrite <- (L ro (or_introl eq_refl)), (Forall2_len _ _ _ A). reflexivity.
  - cbn [map] in T1. injection T1 as _ T1. apply IH; auto; intros r Hr; [apply L|apply I]; right; assumption.
Qed.
Print Assumptions C55_vertical_partial.

Theorem C55_total : forall cc topo ratio fill c o t layout, topo_ok topo -> good_sigla c -> has_texts c -> collate cc topo ratio c o = Ok (OTable t) ->
  layout = lit "horizontal" \/ layout = lit "vertical" -> exists p, print_table fill cc layout t = Ok p.
Proof. intros cc topo ratio fill c o t layout TO G HT H L. apply print_total; [|exact L]. apply (table_texts cc topo ratio TO c o t G HT H). Qed.
Print Assumptions C55_total.

(** Refuted: "different collations print differently". *)
Theorem C55_hyphen_refuted : exists c1 c2 t1 t2, good_sigla c1 /\ good_sigla c2 /\
  map (fun w => length (w_toks w)) c1 <> map (fun w => length (w_toks w)) c2 /\
  collate ascii_cc kahn sample_ratio c1 (plain_options "table") = Ok (OTable t1) /\
  collate ascii_cc kahn sample_ratio c2 (plain_options "table") = Ok (OTable t2) /\
  forall fill layout, print_table fill ascii_cc layout t1 = print_table fill ascii_cc layout t2.
Proof.
  exists [words "A" ["a"; "b"]; words "B" ["a"]], [words "A" ["a"; "b"]; words "B" ["a"; "-"]]. eexists. eexists.
  split; [split; [repeat constructor; cbn; intuition discriminate|cbn; intuition discriminate]|].
  split; [split; [repeat constructor; cbn; intuition discriminate|cbn; intuition discriminate]|]. split; [discriminate|].
  split; [vm_compute; reflexivity|]. split; [vm_compute; reflexivity|]. intros fill layout. unfold print_table.
  destruct (str_eqb layout (lit "vertical")); [vm_compute; reflexivity|]. destruct (str_eqb layout (lit "horizontal")); vm_compute; reflexivity.
Qed.
Print Assumptions C55_hyphen_refuted.

Example C55_case : good_sigla three_witnesses /\ exists t, collate ascii_cc kahn sample_ratio three_witnesses (plain_options "table") = Ok (OTable t) /\
  print_table (fun s => s) ascii_cc (lit "horizontal") t = Ok (PRows
    [[lit "A"; lit "the"; lit "quick"; lit "brown"; lit "fox"; lit "jumps"; lit "-"];
     [lit "B"; lit "the"; lit "-"; lit "brown"; lit "fox"; lit "jumps"; lit "twice"];
     [lit "C"; lit "a"; lit "quick"; lit "-"; lit "fox"; lit "jumps"; lit "-"]]).
Proof.
  split; [split; [repeat constructor; cbn; intuition discriminate|cbn; intuition discriminate]|]. eexists. split; vm_compute; reflexivity.
Qed.
