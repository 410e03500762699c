(** Property C94: outputs made of texts need the text of every token. *)
From Verif Require Import Py Lib TokenModel SuffixModel IndexModel GraphModel AlignModel TableModel NearModel ExportModel CollateModel HtmlModel DrawModel
  GraphSpec TableSpec CollateSpec ExportSpec Samples TopoProof ResultProof CollateProof OutputProof NearProof ExportProof HtmlProof DrawProof TextErrSpec TextErrProof.
From Coq Require Import QArith.
Open Scope list_scope.
Open Scope nat_scope.

(** xml, tei, csv and tsv: if collate answers, every token has a text; if it raises, it is
    because of the entry "t" of some token, and the error says what is wrong with it.  (The xml
    export applies str to the entry, which the model does only for texts: hence the condition.) *)
Theorem C94_texts : forall cc topo ratio c o, topo_ok topo -> c <> [] -> good_sigla c -> no_empty_witness c -> ~ marker_clash (o_filter o) c ->
  o_astar o = false -> o_transp o = false -> (o_near o = true -> o_segmentation o = false) -> In (o_output o) outputs_with_text ->
  (o_output o = lit "xml" -> texts_or_nothing c) ->
  match collate cc topo ratio c o with
  | Ok _ => o_near o = false -> has_texts c
  | Raise e => some_text_error c e
  end.
Proof.
  intros cc topo ratio c o TO N G NE NM O1 O2 O3 IO _. destruct (graph_total_all cc topo ratio TO c o N G NE NM O1 O2 O3) as [g [r E]].
  pose proof G as [ND NG]. destruct (table_exists cc topo ratio TO c o g r ND NG E) as [W HT].
  pose proof (collate_as_table cc topo ratio c o g r _ E HT) as TB. set (t := wtable W (map w_sigil c) r) in *.
  pose proof (fun A => @columns_texts cc topo ratio TO A c (set_output o (lit "table")) t) as CT.
  pose proof (fun A => @rows_texts cc topo ratio TO A c (set_output o (lit "table")) t) as RT.
  unfold collate. rewrite E. cbn [bind]. unfold render. rewrite HT. cbn [bind].
  destruct IO as [<- |[<- |[<- |[<- |[]]]]]; cbn [str_eqb lit Ascii.N_of_ascii N.eqb Pos.eqb andb Ascii.N_of_digits].
  - specialize (CT _ (export_xml t) G TB (xml_result t)). vm_compute str_eqb. cbv iota. destruct (export_xml t); exact CT.
  - specialize (CT _ (export_tei cc (o_indent o) t) G TB (tei_result cc (o_indent o) t)). vm_compute str_eqb. cbv iota. destruct (export_tei cc (o_indent o) t); exact CT.
  - specialize (RT _ (export_csv false t) G TB (csv_result false t)). vm_compute str_eqb. cbv iota. destruct (export_csv false t); exact RT.
  - specialize (RT _ (export_csv true t) G TB (csv_result true t)). vm_compute str_eqb. cbv iota. destruct (export_csv true t); exact RT.
Qed.
Print Assumptions C94_texts.

(** So, near matching apart, these outputs succeed exactly when every token has a text. *)
Theorem C94_exactly : forall cc topo ratio c o, topo_ok topo -> c <> [] -> good_sigla c -> no_empty_witness c -> ~ marker_clash (o_filter o) c ->
  o_astar o = false -> o_transp o = false -> o_near o = false -> In (o_output o) outputs_with_text ->
  (o_output o = lit "xml" -> texts_or_nothing c) ->
  ((exists x, collate cc topo ratio c o = Ok x) <-> has_texts c).
Proof.
  intros cc topo ratio c o TO N G NE NM O1 O2 O3 IO IX. split.
  - intros [x E]. pose proof (C94_texts cc topo ratio c o TO N G NE NM O1 O2) as H. rewrite E in H. apply H; [rewrite O3; discriminate|assumption..].
  - intros HT. apply (succeeds_all cc topo ratio TO c o N G NE NM); auto; [|rewrite O3; discriminate]. unfold outputs. apply in_or_app. right. assumption.
Qed.
Print Assumptions C94_exactly.

(** The html2 page and the printed table. *)
Theorem C94_html2 : forall cc topo ratio fill c o, topo_ok topo -> c <> [] -> good_sigla c -> no_empty_witness c -> ~ marker_clash (o_filter o) c ->
  o_astar o = false -> o_transp o = false -> (o_near o = true -> o_segmentation o = false) -> o_output o = lit "html2" ->
  match collate_html2 fill cc topo ratio c o with
  | Ok _ => o_near o = false -> has_texts c
  | Raise e => some_text_error c e
  end.
Proof.
  intros cc topo ratio fill c o TO N G NE NM O1 O2 O3 IO. destruct (graph_total_all cc topo ratio TO c o N G NE NM O1 O2 O3) as [g [r E]].
  pose proof G as [ND NG]. destruct (table_exists cc topo ratio TO c o g r ND NG E) as [W HT].
  pose proof (collate_as_table cc topo ratio c o g r _ E HT) as TB. set (t := wtable W (map w_sigil c) r) in *.
  destruct (table_good cc topo ratio TO c _ t G TB) as [_ KE _ _]. rewrite Forall_forall in KE.
  assert (X : collate cc topo ratio c o = Ok (OHtml2 t)) by (unfold collate; rewrite E; cbn [bind]; unfold render; rewrite HT, IO; reflexivity).
  unfold collate_html2. rewrite X. cbn [bind].
  exact (columns_texts cc topo ratio TO c _ t (html2 fill (map w_sigil c) t) G TB
    (html2_result fill (map w_sigil c) t (fun col sg ts A B => proj2 (KE col A) sg (in_map fst _ _ B)) (fun col A => proj1 (KE col A)))).
Qed.
Print Assumptions C94_html2.

Theorem C94_printed : forall cc topo ratio fill c o t layout, topo_ok topo -> good_sigla c -> collate cc topo ratio c o = Ok (OTable t) ->
  layout = lit "horizontal" \/ layout = lit "vertical" ->
  match print_table fill cc layout t with
  | Ok _ => o_near o = false -> has_texts c
  | Raise e => some_text_error c e
  end.
Proof.
  intros cc topo ratio fill c o t layout TO G H HL. apply (rows_texts cc topo ratio TO c o t (print_table fill cc layout t) G H). apply print_result. assumption.
Qed.
Print Assumptions C94_printed.

(** The drawing with readings, also with near matching; the simple drawing needs no texts (C52_total). *)
Theorem C94_svg : forall cc topo ratio weight_text c o, topo_ok topo -> c <> [] -> good_sigla c -> no_empty_witness c -> ~ marker_clash (o_filter o) c ->
  o_astar o = false -> o_transp o = false -> (o_near o = true -> o_segmentation o = false) -> o_output o = lit "svg" ->
  match collate_drawing topo weight_text cc ratio c o with
  | Ok _ => has_texts c
  | Raise e => some_text_error c e
  end.
Proof.
  intros cc topo ratio weight_text c o TO N G NE NM O1 O2 O3 IO. destruct (graph_total_all cc topo ratio TO c o N G NE NM O1 O2 O3) as [g [r E]].
  assert (X : collate cc topo ratio c o = Ok (OSvg false g)) by (unfold collate; rewrite E; cbn [bind]; unfold render; rewrite IO; reflexivity).
  unfold collate_drawing. rewrite X. cbn [bind]. apply (drawing_texts cc topo ratio weight_text TO c o g r G E).
Qed.
Print Assumptions C94_svg.

(** Both errors occur, depending on the first faulty token an output looks at. *)
Definition normal_only : tok0 := {| t0_str := lit "b"; t0_data := [(lit "n", JStr (lit "b"))] |}.
Definition number_text : tok0 := {| t0_str := lit "c"; t0_data := [(lit "n", JStr (lit "c")); (lit "t", JNum 7)] |}.
Definition faulty (l : list tok0) : collation :=
  [{| w_sigil := lit "A"; w_toks := {| t0_str := lit "a"; t0_data := [(lit "t", JStr (lit "a"))] |} :: l |};
   {| w_sigil := lit "B"; w_toks := [{| t0_str := lit "a"; t0_data := [(lit "t", JStr (lit "a "))] |}] |}].
Example C94_example :
  good_sigla (faulty [normal_only; number_text]) /\ no_empty_witness (faulty [normal_only; number_text]) /\ no_markers (faulty [normal_only; number_text]) /\
  collate ascii_cc kahn sample_ratio (faulty [normal_only; number_text]) (plain_options "csv") = Raise KeyError /\
  collate ascii_cc kahn sample_ratio (faulty [number_text; normal_only]) (plain_options "csv") = Raise TypeError /\
  collate_drawing kahn (fun _ => []) ascii_cc sample_ratio (faulty [number_text]) (plain_options "svg") = Raise TypeError /\
  (exists x, collate ascii_cc kahn sample_ratio (faulty []) (plain_options "csv") = Ok x) /\
  exists x, collate ascii_cc kahn sample_ratio (faulty [number_text; normal_only]) (plain_options "json") = Ok x.
Proof.
  split; [split; [repeat constructor; cbn; intuition discriminate|cbn; intuition discriminate]|].
  split; [repeat constructor; discriminate|]. split.
  - intros w t k Hw Ht C. cbn in Hw. destruct Hw as [<- |[<- |[]]]; cbn in Ht; intuition (subst; cbn [t0_str normal_only number_text] in C; cbn in C; discriminate).
  - split; [vm_compute; reflexivity|]. split; [vm_compute; reflexivity|]. split; [vm_compute; reflexivity|]. split; eexists; vm_compute; reflexivity.
Qed.
