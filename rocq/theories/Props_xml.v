(** Property C53: what an XML parser reads from the xml and TEI outputs. *)
From Verif Require Import Py TokenModel SuffixModel IndexModel GraphModel AlignModel TableModel NearModel ExportModel
  CollateModel Lib GraphSpec TableSpec CollateSpec ExportSpec Samples TopoProof ResultProof OutputProof ExportProof NearBest XmlSpec XmlProof.
From Coq Require Import QArith.
Open Scope list_scope.
Open Scope nat_scope.

(** ** C53: in the xml output only line ends in texts change: sigla survive. *)
Theorem C53_xml_partial : forall cc topo ratio c o s, topo_ok topo -> good_sigla c -> collate cc topo ratio c o = Ok (OXml s) ->
  exists t cols, collate cc topo ratio c (set_output o (lit "table")) = Ok (OTable t) /\
    Forall2 readings_of (t_columns t) cols /\ xml_parse s = as_read (fun v => v) (xml_document cols).
Proof. intros cc topo ratio c o s TO G H. apply (xml_of cc topo ratio TO c o s G H). Qed.
Print Assumptions C53_xml_partial.

(** Without carriage returns in the texts the parser reports the table. *)
Theorem C53_xml_without_cr_partial : forall cc topo ratio c o s, topo_ok topo -> good_sigla c -> texts_without_cr c ->
  collate cc topo ratio c o = Ok (OXml s) ->
  exists t cols, collate cc topo ratio c (set_output o (lit "table")) = Ok (OTable t) /\
    Forall2 readings_of (t_columns t) cols /\ xml_parse s = xml_document cols.
Proof.
  intros cc topo ratio c o s TO G NC H. destruct (xml_of cc topo ratio TO c o s G H) as [t [cols [HT [F E]]]]. exists t, cols. split; [exact HT|]. split; [exact F|].
  rewrite E. apply as_read_calm. unfold xml_document. apply calm_element; [constructor|]. apply calm_flat_map. intros rs Hrs.
  apply calm_element; [constructor|]. apply calm_flat_map. intros [sg x] Hx. apply calm_element; [repeat constructor|]. cbn [snd]. apply calm_chars.
  destruct (NearBest.Forall2_In_r _ _ _ _ F Hrs) as [col [Hc Hr]]. apply (readings_clean cc topo ratio TO c _ t col rs sg x G NC HT Hc Hr Hx).
Qed.
Print Assumptions C53_xml_without_cr_partial.

(** In the TEI output, tabs and line ends in sigla become blanks. *)
Theorem C53_tei_partial : forall cc topo ratio c o s, topo_ok topo -> good_sigla c -> collate cc topo ratio c o = Ok (OTei s) ->
  exists t parts, collate cc topo ratio c (set_output o (lit "table")) = Ok (OTable t) /\
    Forall2 (fun col p => exists rs, readings_of col rs /\ part_right cc (map w_sigil c) rs (fst p)) (t_columns t) parts /\
    if o_indent o then without_chars [9%N; 10%N] (xml_parse s) = without_chars [9%N; 10%N] (as_read blanked (tei_document parts))
    else xml_parse s = as_read blanked (tei_document parts).
Proof.
  intros cc topo ratio c o s TO G H. destruct (tei_parsed_of cc topo ratio TO c o s G H) as [t [ps [A [B C]]]]. exists t, ps. split; [exact A|]. split; [|exact C].
  clear - B. induction B as [|a b la lb [rs [R1 [R2 _]]] B IH]; constructor; [exists rs; auto|assumption].
Qed.
Print Assumptions C53_tei_partial.

(** Without carriage returns in the texts and without white space in the sigla, the parser reports
    the readings, and the sigla of a reading are found by cutting the attribute at the blanks. *)
Theorem C53_tei_plain_partial : forall cc topo ratio c o s, topo_ok topo -> good_sigla c -> texts_without_cr c -> plain_sigla c ->
  o_indent o = false -> collate cc topo ratio c o = Ok (OTei s) ->
  exists t parts, collate cc topo ratio c (set_output o (lit "table")) = Ok (OTable t) /\
    Forall2 (fun col p => exists rs, readings_of col rs /\ part_right cc (map w_sigil c) rs (fst p)) (t_columns t) parts /\
    xml_parse s = tei_document parts /\
    forall gs b k sgs, In (Variants gs, b) parts -> In (k, sgs) gs ->
      pieces 32 (str_join (lit " ") (map (fun s => lit "#" ++ s) sgs)) = map (fun s => lit "#" ++ s) sgs.
Proof.
  intros cc topo ratio c o s TO G NC PS Hi H. destruct (C53_tei_partial cc topo ratio c o s TO G H) as [t [ps [A [B C]]]]. rewrite Hi in C. exists t, ps.
  split; [exact A|]. split; [exact B|].
  assert (SG : forall gs b k sgs sg, In (Variants gs, b) ps -> In (k, sgs) gs -> In sg sgs -> sgs <> [] /\ In sg (map w_sigil c)).
  { intros gs b k sgs sg Hp Hg Hs. destruct (NearBest.Forall2_In_r _ _ _ _ B Hp) as [col [Hc [rs [R P]]]]. cbn [fst part_right] in P.
    destruct P as [_ [_ [_ [P1 P2]]]]. split; [apply (P1 k sgs Hg)|]. destruct (proj1 (P2 sg k) (ex_intro _ sgs (conj Hg Hs))) as [x [X _]].
    apply (readings_clean cc topo ratio TO c _ t col rs sg x G NC A Hc R X). }
  assert (NE : forall gs b k sgs, In (Variants gs, b) ps -> In (k, sgs) gs -> sgs <> []).
  { intros gs b k sgs Hp Hg. destruct (NearBest.Forall2_In_r _ _ _ _ B Hp) as [col [Hc [rs [R P]]]]. cbn [fst part_right] in P. destruct P as [_ [_ [_ [P1 _]]]]. apply (P1 k sgs Hg). }
  assert (NB : forall sg x, In sg (map w_sigil c) -> In x [9%N; 10%N; 13%N; 32%N] -> ~ In x sg).
  { intros sg x Hs Hx. apply in_map_iff in Hs as [w [<- Hw]]. apply (PS w x Hw Hx). }
  assert (ST : forall col rs sg x k, In col (t_columns t) -> readings_of col rs -> In (sg, x) rs -> stripped cc x k -> ~ In 13%N k).
  { intros col rs sg x k Hc R Hx [a [b [-> _]]] Hk. apply (proj1 (readings_clean cc topo ratio TO c _ t col rs sg _ G NC A Hc R Hx)). rewrite !in_app_iff. tauto. }
  split.
  - rewrite C. apply as_read_calm. unfold tei_document. apply calm_element; [repeat constructor|]. apply calm_flat_map. intros [p b] Hp.
    unfold tei_part_events. apply Forall_app. split; [|destruct b; cbn [snd]; [apply calm_chars; cbn; intuition discriminate|constructor]]. cbn [fst].
    destruct (NearBest.Forall2_In_r _ _ _ _ B Hp) as [col [Hc [rs [R P]]]]. cbn [fst] in P. destruct p as [k|gs]; cbn [part_right] in P.
    + apply calm_chars. destruct c as [|w c]; [destruct (collate_not_empty cc topo ratio _ _ _ H) as [N _]; congruence|].
      destruct (P (w_sigil w) (or_introl eq_refl)) as [x [X1 X2]]. apply (ST col rs _ x k Hc R X1 X2).
    + apply calm_element; [constructor|]. apply calm_flat_map. intros [k sgs] Hg. cbn [fst snd]. apply calm_element.
      * constructor; [|constructor]. cbn [snd]. apply blanked_plain. intros x Hx Hj. apply In_str_join in Hj as [Hj|[y [Y1 Y2]]].
        -- cbn in Hx, Hj. intuition (subst; discriminate).
        -- apply in_map_iff in Y1 as [sg [<- Hs]]. apply in_app_iff in Y2 as [Y2|Y2]; [cbn in Hx, Y2; intuition (subst; discriminate)|].
           apply (NB sg x (proj2 (SG gs b k sgs sg Hp Hg Hs))); [cbn in *; tauto|assumption].
      * apply calm_chars. destruct P as [_ [_ [_ [P1 P2]]]]. destruct sgs as [|sg sgs]; [destruct (P1 k [] Hg eq_refl)|].
        destruct (proj1 (P2 sg k) (ex_intro _ _ (conj Hg (or_introl eq_refl)))) as [x [X1 X2]]. apply (ST col rs sg x k Hc R X1 X2).
  - intros gs b k sgs Hp Hg. apply wit_pieces; [apply (NE gs b k sgs Hp Hg)|]. rewrite Forall_forall. intros sg Hs.
    apply (NB sg 32%N (proj2 (SG gs b k sgs sg Hp Hg Hs))). cbn. tauto.
Qed.
Print Assumptions C53_tei_plain_partial.

(** Refuted: a carriage return in a text is not written as a reference, so it is lost. *)
Theorem C53_cr_refuted : exists c s t, good_sigla c /\ has_texts c /\
  collate ascii_cc kahn sample_ratio c (plain_options "xml") = Ok (OXml s) /\
  collate ascii_cc kahn sample_ratio c (plain_options "table") = Ok (OTable t) /\
  forall cols, Forall2 readings_of (t_columns t) cols -> xml_parse s <> xml_document cols.
Proof.
  exists cr_text. eexists. eexists. split; [split; [repeat constructor; cbn; intuition discriminate|cbn; intuition discriminate]|]. split.
  { intros w t [<-|[]] Ht. cbn [w_toks In] in Ht. repeat (destruct Ht as [<-|Ht]; [eexists; reflexivity|]); contradiction. }
  split; [vm_compute; reflexivity|]. split; [vm_compute; reflexivity|]. intros cols F E. cbn [t_columns] in F.
  inversion F as [|col rs ? cols' R F' E1 E2]; subst. destruct R as [R1 [R2 R3]].
  destruct rs as [|[sg x] rs]; [destruct (proj2 (R2 (lit "A"))); left; reflexivity|].
  destruct (R3 sg x (or_introl eq_refl)) as [ts [[T1|[]] [l [L ->]]]]. injection T1 as <- <-.
  inversion L as [|? y ? l' Ly L' E3 E4]; subst. inversion L'; subst. vm_compute in Ly. injection Ly as <-. vm_compute in E. discriminate.
Qed.
Print Assumptions C53_cr_refuted.

(** Refuted: "from the TEI output one can tell which witnesses have a reading".  A siglum with a
    blank in it looks like two witnesses. *)
Definition one_word (sg : str) (s : String.string) : witness := {| w_sigil := sg; w_toks := [word (lit s)] |}.
Arguments one_word sg s%string_scope.
Theorem C53_sigla_refuted : exists c1 c2 s, good_sigla c1 /\ good_sigla c2 /\ length c1 <> length c2 /\
  collate ascii_cc kahn sample_ratio c1 (plain_options "tei") = Ok (OTei s) /\
  collate ascii_cc kahn sample_ratio c2 (plain_options "tei") = Ok (OTei s).
Proof.
  exists [one_word (lit "A") "x"; one_word (lit "B") "x"; one_word (lit "C") "y"], [one_word (lit "A #B") "x"; one_word (lit "C") "y"]. eexists.
  split; [split; [repeat constructor; cbn; intuition discriminate|cbn; intuition discriminate]|].
  split; [split; [repeat constructor; cbn; intuition discriminate|cbn; intuition discriminate]|]. split; [discriminate|].
  split; vm_compute; reflexivity.
Qed.
Print Assumptions C53_sigla_refuted.

Example C53_case : good_sigla markup_text /\ texts_without_cr markup_text /\ plain_sigla markup_text /\
  (exists s, collate ascii_cc kahn sample_ratio markup_text (plain_options "tei") = Ok (OTei s)) /\
  exists s, collate ascii_cc kahn sample_ratio markup_text (plain_options "xml") = Ok (OXml s).
Proof.
  split; [split; [repeat constructor; cbn; intuition discriminate|cbn; intuition discriminate]|]. split.
  { intros w t s [<-|[<-|[]]] Ht; cbn [w_toks In] in Ht;
      repeat (destruct Ht as [<-|Ht]; [intros E; vm_compute in E; injection E as <-; cbn; intuition discriminate|]); contradiction. }
  split; [intros w x [<-|[<-|[]]] Hx; cbn in Hx |- *; intuition (subst; discriminate)|].
  split; eexists; vm_compute; reflexivity.
Qed.
