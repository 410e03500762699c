(** Property C92: the tables and lists of collatex/HTML.py. *)
From Verif Require Import Py Lib TokenModel SuffixModel IndexModel GraphModel TableModel ExportModel CollateModel GraphSpec TableSpec CollateSpec ExportSpec HtmlModel HtmlSpec HtmlProof
  HtmlLibModel HtmlLibSpec HtmlLibProof.
From Coq Require Import QArith Lia.
Open Scope list_scope.
Open Scope nat_scope.

(** A table whose texts and attributes need no escaping is written for every reader: the attributes
    of the table, a COL for every width, the header row, and every row with every cell, with its own
    attributes or else those of its column. *)
Theorem C92_document : forall t, good_html t -> exists s t', table_str t = Ok (s, t') /\ xml_events s = table_document t.
Proof. exact table_reads. Qed.
Print Assumptions C92_document.

(** Writing a table changes the objects in it, but writing it again gives the same text. *)
Theorem C92_again : forall t s t', table_str t = Ok (s, t') -> table_str t' = Ok (s, t').
Proof. exact table_again. Qed.
Print Assumptions C92_again.

(** The text of output="html2" is such a table: the sigla as header row, and for each column of the
    alignment table a row of cells with a colour and a text. *)
Theorem C92_html2 : forall fill cc topo ratio c o s, topo_ok topo -> good_sigla c -> collate_html2 fill cc topo ratio c o = Ok s ->
  exists t rows t', collate cc topo ratio c (set_output o (lit "table")) = Ok (OTable t) /\
    Forall2 (fun col row => Forall2 (fun w i => exists x, shows_text col (w_sigil w) x /\
      i = HCell {| hc_text := fill x; hc_bgcolor := Some (if c_variant col then lit "FF0000" else lit "00FFFF"); hc_header := false; hc_width := None; hc_align := None;
                   hc_char := None; hc_charoff := None; hc_valign := None; hc_style := None; hc_attribs := [] |}) c row) (t_columns t) rows /\
    table_str (new_table (map HList rows) (Some (HList (map (fun w => HText (w_sigil w)) c)))) = Ok (s, t').
Proof.
  intros fill cc topo ratio c o s TO G H. destruct (html2_inv cc topo ratio fill TO c o s G H) as [_ [t [rows [HT [F ->]]]]].
  assert (FN : Forall (Forall (fun x => fst x <> [])) rows).
  { clear - F. induction F as [|col row cols rows F1 _ IH]; constructor; [|exact IH]. clear - F1.
    induction F1 as [|w x c row [E _] _ IH]; constructor; [|exact IH]. intros Z. pose proof (eq_trans (eq_sym Z) E) as W. unfold colour in W. destruct (c_variant col); discriminate W. }
  destruct (html2_is_table (map w_sigil c) rows FN) as [t' E]. exists t, (map (map coloured_cell) rows), t'. split; [exact HT|]. split.
  - clear - F. induction F as [|col row cols rows F1 _ IH]; constructor; [|exact IH]. clear - F1.
    induction F1 as [|w x c row [E [y [Y1 Y2]]] _ IH]; constructor; [|exact IH]. exists y. split; [exact Y1|]. unfold coloured_cell. rewrite Y2, E. reflexivity.
  - rewrite map_map in E. rewrite map_map. exact E.
Qed.
Print Assumptions C92_html2.

(** Without the restriction to different strings: the column of a cell is looked up by its value. *)
Theorem C92_same_text_refuted : exists t s t', 
  ht_rows t = [HList [HText (lit "1"); HText (lit "1")]] /\ ht_header t = None /\ ht_cols t = align_only [Some (lit "left"); Some (lit "right")] /\
  table_str t = Ok (s, t') /\ xml_events s <> table_document t /\
  count_begin (lit "TD") (xml_events s) = 2 /\ ~ In (Begin (lit "TD") [(lit "align", lit "right")]) (xml_events s).
Proof.
  exists {| ht_rows := [HList [HText (lit "1"); HText (lit "1")]]; ht_border := Some (lit "1"); ht_style := Some thin_border; ht_width := None; ht_cellspacing := None;
     ht_cellpadding := Some (lit "4"); ht_attribs := []; ht_header := None; ht_colwidth := []; ht_cols := align_only [Some (lit "left"); Some (lit "right")] |}.
  eexists. eexists. split; [reflexivity|]. split; [reflexivity|]. split; [reflexivity|]. split; [vm_compute; reflexivity|]. split; [vm_compute; discriminate|]. split; [vm_compute; reflexivity|].
  vm_compute. intros H. repeat (destruct H as [H|H]; [discriminate H|]). destruct H.
Qed.
Print Assumptions C92_same_text_refuted.

(** Alignments for fewer columns than a row has cells: IndexError. *)
Theorem C92_short_columns : forall cells a header, distinct_texts cells -> (forall i c, nth_error cells i = Some (HCell c) -> hc_align c = None) ->
  a <> [] -> length a < length cells -> line_str header {| k_align := a; k_valign := []; k_char := []; k_charoff := []; k_styles := [] |} (HList cells) = Raise IndexError.
Proof.
  intros cells a header D N NE L. unfold line_str, row_str. cbn [with_cols new_row hr_cells hr_header hr_cols]. unfold inherit_cols. cbn [no_cols k_align k_valign k_char k_charoff k_styles inherit].
  assert (E : items_str cells header (align_only a) 0 cells = Raise IndexError) by (apply (short_items cells header a D N NE L cells [] eq_refl); cbn [length]; lia).
  unfold align_only in E. rewrite E. reflexivity.
Qed.
Print Assumptions C92_short_columns.
(** A row without cells cannot be written. *)
Theorem C92_no_cells : forall r k header, hr_cells r = None -> line_str header k (HRow r) = Raise TypeError.
Proof. intros r k header H. unfold line_str, row_str. cbn [with_cols hr_cells]. rewrite H. reflexivity. Qed.
Print Assumptions C92_no_cells.

(** A list: an entry for every line, in order; writing it again gives the same text. *)
Theorem C92_list : forall l, good_list l -> xml_events (fst (list_str l)) = list_document l /\ list_str (snd (list_str l)) = list_str l.
Proof. intros l G. split; [exact (list_reads l G)|exact (list_again l)]. Qed.
Print Assumptions C92_list.
(** A link *)
Theorem C92_link : forall text url, no_markup text -> plain_value url -> xml_events (link text url) = element (lit "a") [(lit "href", url)] (chars text).
Proof.
  intros text url N P. assert (PA : plain_attribs [(lit "href", url)]) by (intros k v [H|[]]; injection H as <- <-; split; [is_name|exact P]).
  assert (R : reads (link text url) (element (lit "a") [(lit "href", url)] (chars text))).
  { eapply reads_eq; [|apply reads_element; [is_letters|exact PA|apply reads_plain; exact N]]. unfold link, attribs_text. cbn [map concat]. rewrite app_nil_r. rewrite <- !app_assoc. reflexivity. }
  unfold xml_events. specialize (R []). rewrite !app_nil_r in R. exact R.
Qed.
Print Assumptions C92_link.

(** A table with a header, widths, alignments, a row of its own and a cell of its own. *)
Definition sample_cell : hcell :=
  {| hc_text := lit "new"; hc_bgcolor := Some (lit "red"); hc_header := false; hc_width := None; hc_align := Some (lit "center");
     hc_char := None; hc_charoff := None; hc_valign := None; hc_style := None; hc_attribs := [(lit "id", lit "x")] |}.
Definition sample_table : htable :=
  {| ht_rows := [HList [HText (lit "1"); HText []]; HRow {| hr_cells := Some [HCell sample_cell; HText (lit "8")]; hr_bgcolor := Some (lit "blue"); hr_header := false; hr_attribs := []; hr_cols := no_cols |}];
     ht_border := Some (lit "1"); ht_style := Some thin_border; ht_width := None; ht_cellspacing := None;
     ht_cellpadding := Some (lit "4"); ht_attribs := []; ht_header := Some (HList [HText (lit "a"); HText (lit "a")]); ht_colwidth := [lit "20"; lit "30"]; ht_cols := align_only [Some (lit "left"); None] |}.
Ltac plain_check := let c := fresh in let H := fresh in intros c H; cbn in H; repeat (destruct H as [<-|H]; [repeat split; discriminate|]); destruct H.
Example C92_document_example : good_html sample_table.
Proof.
  assert (F0 : forall names, further names []) by (intros names; split; [constructor|intros ? ? []]).
  assert (CV : covers 2 (align_only [Some (lit "left"); None])) by (intros l H; cbn in H; repeat (destruct H as [<-|H]; [cbn; (left; reflexivity) || (right; lia)|]); destruct H).
  assert (GC : good_cols (align_only [Some (lit "left"); None])).
  { repeat split; try constructor; [plain_check|]. constructor; [exact I|constructor]. }
  assert (NM : forall s, no_markup s -> good_item (HText s)) by (intros s H; exact H).
  unfold good_html, sample_table. cbn [ht_rows ht_header ht_colwidth ht_border ht_style ht_width ht_cellspacing ht_cellpadding ht_attribs ht_cols].
  refine (conj _ (conj _ (conj _ (conj _ (conj _ (conj I (conj I (conj _ (F0 _))))))))).
  - constructor; [|constructor; [|constructor]].
    + refine (conj _ (conj GC (conj CV (or_intror _)))); [constructor; [apply NM; no_mark|constructor; [apply NM; no_mark|constructor]]|].
      unfold distinct_texts. cbn [texts_of]. repeat constructor; cbn; intuition discriminate.
    + eexists. split; [reflexivity|]. refine (conj (conj _ (conj GC (conj CV (or_intror _)))) (conj _ (F0 _))).
      * constructor; [|constructor; [apply NM; no_mark|constructor]]. cbn [good_item sample_cell hc_text hc_bgcolor hc_width hc_align hc_char hc_charoff hc_valign hc_style hc_attribs].
        refine (conj _ (conj _ (conj I (conj _ (conj I (conj I (conj I (conj I _)))))))); [no_mark|plain_check|plain_check|].
        split; [repeat constructor; cbn; intuition|]. intros k v [H|[]]. injection H as <- <-. split; [cbn; intuition discriminate|]. split; plain_check.
      * unfold distinct_texts. cbn. repeat constructor. intros [].
      * plain_check.
  - intros l H. injection H as <-. refine (conj _ (conj _ (conj _ (or_introl eq_refl)))).
    + constructor; [apply NM; no_mark|constructor; [apply NM; no_mark|constructor]].
    + repeat split; constructor.
    + intros l H. cbn in H. repeat (destruct H as [<-|H]; [left; reflexivity|]). destruct H.
  - constructor; [plain_check|constructor; [plain_check|constructor]].
  - plain_check.
  - plain_check.
  - plain_check.
Qed.
Example C92_list_example : good_list {| hl_lines := [lit "one"; lit "two"]; hl_ordered := true; hl_start := Some (lit "3"); hl_attribs := [] |}.
Proof. split; [constructor; [no_mark|constructor; [no_mark|constructor]]|]. split; [plain_check|]. split; [constructor|intros ? ? []]. Qed.
Example C92_short_example : distinct_texts [HText (lit "a"); HText (lit "b")] /\ [Some (lit "left")] <> [] /\ length [Some (lit "left")] < length [HText (lit "a"); HText (lit "b")].
Proof. split; [unfold distinct_texts; cbn; repeat constructor; cbn; intuition discriminate|]. split; [discriminate|cbn; lia]. Qed.
