(** C75: a JSON result used as input again. *)
From Verif Require Import Py TokenModel SuffixModel IndexModel GraphModel AlignModel TableModel NearModel ExportModel
  CollateModel Lib GraphSpec TableSpec CollateSpec ExportSpec TokenSpec OrderSpec Samples TopoProof HistoryProof ResultProof OutputProof PlainProof ExportProof IndexProof TokenProof DictProof
  JsonModel JsonSpec JsonProof ParamSpec ParamProof OrderProof Props_json AgainSpec.
From Coq Require Import Permutation QArith.
Open Scope list_scope.
Open Scope nat_scope.

Definition as_tok0 (t : token) : tok0 := {| t0_str := tk_str t; t0_data := tk_data t |}.
Definition as_witness (iw : iwitness) : witness := {| w_sigil := iw_sigil iw; w_toks := map as_tok0 (iw_toks iw) |}.

Lemma agree_stamped : forall c pos, agree pos c (map as_witness (stamped pos c)).
Proof.
  induction c as [|w c IH]; intros pos; [constructor|]. cbn [stamped map]. unfold as_witness at 1. cbn [iw_sigil iw_toks].
  constructor; cbn [w_sigil w_toks]; [reflexivity|rewrite map_length; apply HistoryProof.stamp_length|apply stamp_twice|apply IH].
Qed.

(** Reading the rows back. *)
Lemma init_row : forall cc sg toks, (forall t, In t toks -> token_init (t0_data t) = Ok (JStr (t0_str t), t0_data t)) ->
  witness_init cc [(lit "id", JStr sg); (lit "tokens", JArr (map (fun t => JObj (t0_data t)) toks))] = Ok {| w_sigil := sg; w_toks := toks |}.
Proof.
  intros cc sg toks H. unfold witness_init. change (dget str_eqb (lit "id") [(lit "id", JStr sg); (lit "tokens", JArr (map (fun t => JObj (t0_data t)) toks))]) with (Some (JStr sg)).
  change (dget str_eqb (lit "content") [(lit "id", JStr sg); (lit "tokens", JArr (map (fun t => JObj (t0_data t)) toks))]) with (@None jval).
  change (dget str_eqb (lit "tokens") [(lit "id", JStr sg); (lit "tokens", JArr (map (fun t => JObj (t0_data t)) toks))]) with (Some (JArr (map (fun t => JObj (t0_data t)) toks))).
  cbn iota.
  assert (E : mapM as_dict (map (fun t => JObj (t0_data t)) toks) = Ok (map t0_data toks)).
  { clear. induction toks as [|t toks IH]; [reflexivity|]. cbn [map mapM as_dict bind]. rewrite IH. reflexivity. }
  rewrite E. cbn [bind].
  assert (E2 : mapM token_init (map t0_data toks) = Ok (map (fun t => (JStr (t0_str t), t0_data t)) toks)).
  { clear E. induction toks as [|t toks IH]; [reflexivity|]. cbn [map mapM]. rewrite (H t (or_introl eq_refl)). cbn [bind].
    rewrite IH by (intros x Hx; apply H; right; exact Hx). reflexivity. }
  rewrite E2. cbn [bind].
  assert (E3 : mapM tok_str_of (map (fun t => (JStr (t0_str t), t0_data t)) toks) = Ok toks).
  { clear. induction toks as [|[s d] toks IH]; [reflexivity|]. cbn [map mapM tok_str_of fst snd bind t0_str t0_data]. rewrite IH. reflexivity. }
  rewrite E3. reflexivity.
Qed.
Definition input_of (c : collation) : jdict :=
  [(lit "witnesses", JArr (map (fun w => JObj [(lit "id", JStr (w_sigil w)); (lit "tokens", JArr (map (fun t => JObj (t0_data t)) (w_toks w)))]) c))].
Lemma input_back : forall cc c, (forall w t, In w c -> In t (w_toks w) -> token_init (t0_data t) = Ok (JStr (t0_str t), t0_data t)) ->
  create_from_dict cc (input_of c) None = Ok c.
Proof.
  intros cc c H. unfold create_from_dict, input_of. cbn [dget]. rewrite str_eqb_refl. cbn [py_prefix].
  assert (G : forall l acc, (forall w t, In w l -> In t (w_toks w) -> token_init (t0_data t) = Ok (JStr (t0_str t), t0_data t)) ->
    foldM (fun c0 v => d <- as_dict v ;; add_witness cc c0 d) (map (fun w => JObj [(lit "id", JStr (w_sigil w)); (lit "tokens", JArr (map (fun t => JObj (t0_data t)) (w_toks w)))]) l) acc = Ok (acc ++ l)).
  { induction l as [|w l IH]; intros acc K; cbn [map foldM]; [rewrite app_nil_r; reflexivity|]. cbn [as_dict bind]. unfold add_witness.
    rewrite init_row by (intros t Ht; apply (K w t (or_introl eq_refl) Ht)). cbn [bind]. rewrite IH by (intros w' t Hw; apply K; right; exact Hw).
    rewrite <- app_assoc. destruct w; reflexivity. }
  unfold collation_empty. rewrite (G c [] H). reflexivity.
Qed.

(** Stamped data still give the token's reading, and have no key twice. *)
Lemma given_get : forall d s, NoDup (map fst d) -> given_reading d s -> token_init d = Ok (JStr s, d).
Proof.
  intros d s ND [H|H H']; unfold token_init.
  - rewrite (In_dget _ str_eqb_ok (lit "n") (JStr s) d ND H). reflexivity.
  - destruct (dget str_eqb (lit "n") d) as [v|] eqn:E; [exfalso; apply H; apply (dget_In _ str_eqb_ok) in E; apply in_map_iff; exists (lit "n", v); auto|].
    rewrite (In_dget _ str_eqb_ok (lit "t") (JStr s) d ND H'). reflexivity.
Qed.
Lemma stamp_tokens : forall sg ts pos tk, In tk (stamp sg pos ts) -> exists t p, In t ts /\ tk_str tk = t0_str t /\
  tk_data tk = dset str_eqb k_pos (JNum (Z.of_nat p)) (dset str_eqb k_sigil (JStr sg) (t0_data t)).
Proof.
  intros sg ts. induction ts as [|t ts IH]; intros pos tk H; [contradiction|]. cbn [stamp] in H. destruct H as [<-|H].
  - exists t, pos. split; [left; reflexivity|]. split; reflexivity.
  - destruct (IH _ _ H) as [t' [p [A B]]]. exists t', p. split; [right; exact A|exact B].
Qed.
Lemma init_stamped : forall c, made_tokens c -> forall w t, In w (map as_witness (stamped 0 c)) -> In t (w_toks w) ->
  token_init (t0_data t) = Ok (JStr (t0_str t), t0_data t) /\ proper (JObj (t0_data t)).
Proof.
  intros c M w t Hw Ht. apply in_map_iff in Hw as [iw [<- Hw]]. cbn [as_witness w_toks] in Ht. apply in_map_iff in Ht as [tk [<- Ht]].
  destruct (stamped_toks _ _ _ Hw) as [p [w0 [A [B C]]]]. rewrite C in Ht. destruct (stamp_tokens _ _ _ _ Ht) as [t0 [q [D [E F]]]].
  destruct (M w0 t0 A D) as [G P]. cbn [as_tok0 t0_data t0_str]. rewrite E, F. inversion P as [| | | | |? ND FP]; subst.
  pose proof (given_get _ _ ND G) as T. unfold token_init in T |- *. split.
  - rewrite !(dget_set_other _ str_eqb_ok) by discriminate. 
    destruct (dget str_eqb (lit "n") (t0_data t0)); [injection T as ->; reflexivity|]. destruct (dget str_eqb (lit "t") (t0_data t0)); [injection T as ->; reflexivity|discriminate].
  - assert (S : forall k v d, proper v -> NoDup (map fst d) -> Forall (fun m => proper (snd m)) d -> NoDup (map fst (dset str_eqb k v d)) /\ Forall (fun m => proper (snd m)) (dset str_eqb k v d)).
    { clear. intros k v d V N FP. split; [apply (dset_NoDup _ str_eqb_ok); exact N|]. clear N. induction FP as [|[k' v'] d Hd FP IH]; cbn [dset]; [constructor; [exact V|constructor]|].
      destruct (str_eqb k k'); constructor; assumption. }
    destruct (S k_sigil (JStr (w_sigil w0)) _ (pr_str _) ND FP) as [N1 F1]. destruct (S k_pos (JNum (Z.of_nat q)) _ (pr_num _) N1 F1) as [N2 F2]. constructor; assumption.
Qed.

Lemma canon_row : forall row, json_tokens (map canon row) = map canon (json_tokens row).
Proof.
  unfold json_tokens. induction row as [|x row IH]; [reflexivity|]. cbn [map flat_map]. rewrite map_app, IH. f_equal. destruct x; reflexivity.
Qed.

(** C75: the text of a JSON result, read by any JSON reader and handed to collate again, gives, with any
    options and for every kind of output, what the original collation gives. *)
Theorem C75_json_again : forall cc topo ratio c o j indent v d o', topo_ok topo -> structural topo -> good_sigla c -> made_tokens c ->
  o_near o = false -> o_vertical o = false -> order_blind (o_filter o') ->
  collate cc topo ratio c o = Ok (OJson j) -> json_read (json_dumps indent 0 j) = Some v -> fed_back v d ->
  same_result (collate cc topo ratio c o') (collate_dict cc topo ratio d o').
Proof.
  intros cc topo ratio c o j indent v d o' TO TS G M Hn Hv OB H R [members [rows [sigla [-> [I1 [I2 ->]]]]]].
  destruct (collate_pair cc topo ratio c o _ H I) as [t [HT E]]. rewrite Hv in E.
  pose proof (table_good cc topo ratio TO c _ t G HT) as GT. rewrite (export_json_rows c t GT) in E.
  pose proof (rows_stamped cc topo ratio TO c (set_output o (lit "table")) t G Hn HT) as ST. subst j.
  rewrite json_read_dumps, canon_result in R. injection R as R. unfold json_result in R. subst members.
  assert (E1 : map JArr rows = map JArr (map (map canon) (json_rows t))) by (destruct I1 as [I1|[I1|[]]]; [injection I1 as I1; auto|discriminate]).
  assert (E2 : map JStr sigla = map JStr (map w_sigil c)) by (destruct I2 as [I2|[I2|[]]]; [discriminate|injection I2 as I2; auto]). clear I1 I2.
  assert (R1 : rows = map (map canon) (json_rows t)).
  { revert E1. generalize (map (map canon) (json_rows t)). clear. induction rows as [|r rows IH]; intros [|x l] E; try discriminate; [reflexivity|]. cbn [map] in E. injection E as -> E. f_equal. apply IH. exact E. }
  assert (R2 : sigla = map w_sigil c).
  { revert E2. generalize (map w_sigil c). clear. induction sigla as [|r rows IH]; intros [|x l] E; try discriminate; [reflexivity|]. cbn [map] in E. injection E as -> E. f_equal. apply IH. exact E. }
  clear E1 E2. subst rows sigla. set (c1 := map as_witness (stamped 0 c)).
  assert (IB : create_from_dict cc (input_of c1) None = Ok c1) by (apply input_back; intros w t' Hw Ht; apply (init_stamped c M w t' Hw Ht)).
  assert (EC : collate_dict cc topo ratio (input_of c1) o' = collate cc topo ratio c o').
  { unfold collate_dict. rewrite IB. cbn [bind]. apply agree_collate. apply agree_stamped. }
  rewrite <- EC. apply (collate_dict_order cc topo ratio TS); [| |exact OB].
  - unfold input_of. eapply sj_obj; [reflexivity|]. constructor; [|constructor]. split; [reflexivity|]. cbn [snd]. constructor.
    assert (Q : forall L (LR : list row), Forall2 (fun iw ro => row_tokens ro = iw_toks iw) L LR -> 
      Forall2 same_value (map (fun w => JObj [(lit "id", JStr (w_sigil w)); (lit "tokens", JArr (map (fun t0 => JObj (t0_data t0)) (w_toks w)))]) (map as_witness L))
        (map (fun '(sg, row0) => row_witness sg row0) (combine (map iw_sigil L) (map (map canon) (map (fun r => map cell_json (r_cells r)) LR))))).
    { intros L LR F. induction F as [|iw ro L LR F1 F IH]; cbn [map combine]; constructor; [|exact IH]. unfold row_witness.
      eapply sj_obj; [reflexivity|]. constructor; [split; [reflexivity|constructor]|]. constructor; [|constructor]. split; [reflexivity|]. cbn [snd]. constructor.
      rewrite canon_row, json_tokens_row. fold (row_tokens ro). rewrite F1. unfold as_witness. cbn [w_toks]. rewrite map_map.
      clear. induction (iw_toks iw) as [|tk ts IH]; cbn [map]; constructor; [apply canon_same|exact IH]. }
    replace (map w_sigil c) with (map iw_sigil (stamped 0 c)) by apply stamped_sigla. apply Q.
    unfold row_tokens in ST |- *. revert ST. generalize (t_rows t) (stamped 0 c). clear. intros LR L. revert LR. induction L as [|iw L IH]; intros [|ro LR] E; try discriminate; constructor.
    + cbn [map] in E. injection E as E _. exact E.
    + apply IH. cbn [map] in E. injection E as _ E. exact E.
  - constructor; [repeat constructor; intros []|]. constructor; [|constructor]. cbn [snd]. constructor. apply Forall_forall. intros x Hx. apply in_map_iff in Hx as [w [<- Hw]].
    constructor; [repeat constructor; cbn; intuition discriminate|]. constructor; [constructor|]. constructor; [|constructor]. cbn [snd]. constructor. apply Forall_forall.
    intros y Hy. apply in_map_iff in Hy as [t' [<- Ht]]. apply (init_stamped c M w t' Hw Ht).
Qed.
Print Assumptions C75_json_again.

(** There is such an input. *)
Theorem C75_input_exists : forall cc topo ratio c o j indent, topo_ok topo -> good_sigla c -> o_near o = false -> o_vertical o = false ->
  collate cc topo ratio c o = Ok (OJson j) -> exists v d, json_read (json_dumps indent 0 j) = Some v /\ fed_back v d.
Proof.
  intros cc topo ratio c o j indent TO G Hn Hv H. destruct (collate_pair cc topo ratio c o _ H I) as [t [HT E]]. rewrite Hv in E.
  pose proof (table_good cc topo ratio TO c _ t G HT) as GT. rewrite (export_json_rows c t GT) in E. subst j.
  eexists. eexists. split; [apply json_read_dumps|]. rewrite canon_result. unfold json_result, fed_back. eexists. eexists. eexists. split; [reflexivity|].
  split; [left; reflexivity|]. split; [right; left; reflexivity|]. reflexivity.
Qed.
Print Assumptions C75_input_exists.

(** In particular the JSON result of the second collation is the same text as the first. *)
Theorem C75_fixed_point : forall cc topo ratio c o j indent v d, topo_ok topo -> structural topo -> good_sigla c -> made_tokens c ->
  o_near o = false -> o_vertical o = false -> order_blind (o_filter o) ->
  collate cc topo ratio c o = Ok (OJson j) -> json_read (json_dumps indent 0 j) = Some v -> fed_back v d ->
  exists j', collate_dict cc topo ratio d o = Ok (OJson j') /\ json_dumps indent 0 j' = json_dumps indent 0 j.
Proof.
  intros cc topo ratio c o j indent v d TO TS G M Hn Hv OB H R F.
  pose proof (C75_json_again cc topo ratio c o j indent v d o TO TS G M Hn Hv OB H R F) as S. rewrite H in S.
  destruct (collate_dict cc topo ratio d o) as [x|]; [|contradiction]. destruct x; cbn in S; try contradiction. eexists. split; [reflexivity|]. symmetry. apply S.
Qed.
Print Assumptions C75_fixed_point.

(** Every collation read from data, as load_json or a Python dictionary gives it, has such tokens; and so
    has every witness added as a text or as data. *)
Theorem C75_made_added : forall cc c d c', made_tokens c -> proper (JObj d) -> add_witness cc c d = Ok c' -> made_tokens c'.
Proof.
  intros cc c d c' M P H. unfold add_witness in H. apply bind_ok in H as [w [H E]]. injection E as <-.
  inversion P as [| | | | |? N F]; subst. rewrite Forall_forall in F.
  assert (NT : forall l' d', In (lit "tokens", JArr l') d -> In (JObj d') l' -> proper (JObj d')).
  { intros l' d' H1 H2. specialize (F _ H1). cbn [snd] in F. inversion F as [| | | |? F'|]; subst. rewrite Forall_forall in F'. apply F'. exact H2. }
  apply witness_read in H; [|exact N|intros l' d' H1 H2; specialize (NT _ _ H1 H2); inversion NT; assumption].
  intros w' t Hw Ht. apply in_app_or in Hw as [Hw|[<-|[]]]; [apply (M _ _ Hw Ht)|].
  destruct H as [d0 s c1 _ _ _ E|d0 l Q _ _ E3 E4|d0 _ _ _ _ E].
  - rewrite plain_witness in E. injection E as E. apply app_inv_head in E. injection E as E. rewrite <- E in Ht. cbn [w_toks] in Ht.
    apply in_map_iff in Ht as [x [<- _]]. split; [apply given_n; right; left; reflexivity|]. unfold plain_token. cbn [t0_data].
    constructor; [repeat constructor; cbn; intuition discriminate|repeat constructor].
  - injection Q as <-. revert t Ht. assert (L : forall e, In e l -> forall d', e = JObj d' -> proper (JObj d')) by (intros e He d' ->; apply (NT l d'); assumption).
    clear E3. induction E4 as [|e t0 l r [E G] F4 IH]; intros t Ht; [contradiction|]. destruct Ht as [<-|Ht].
    + split; [exact G|]. apply (L e (or_introl eq_refl) _ E).
    + apply IH; [intros e' He; apply L; right; exact He|exact Ht].
  - rewrite E in Ht. contradiction.
Qed.
Print Assumptions C75_made_added.

Theorem C75_made_data : forall cc data limit c, proper (JObj data) -> create_from_dict cc data limit = Ok c -> made_tokens c.
Proof.
  intros cc data limit c P H. unfold create_from_dict in H. destruct (dget str_eqb (lit "witnesses") data) as [[| | | |l|]|] eqn:E; try discriminate.
  apply (dget_In _ str_eqb_ok) in E. inversion P as [| | | | |? _ F]; subst. rewrite Forall_forall in F. specialize (F _ E). cbn [snd] in F.
  inversion F as [| | | |? FL|]; subst. assert (FP : Forall proper (py_prefix l limit)) by (apply Forall_forall; intros x Hx; apply prefix_incl in Hx; rewrite Forall_forall in FL; auto).
  revert H. assert (M : made_tokens collation_empty) by (intros w t []). revert M. generalize collation_empty. revert c.
  induction FP as [|v l' Pv FP IH]; intros c c0 M H; cbn [foldM] in H; [injection H as <-; exact M|].
  apply bind_ok in H as [c1 [H1 H2]]. apply bind_ok in H1 as [d [H0 H1]]. destruct v; try discriminate. injection H0 as ->.
  apply (IH c c1); [|exact H2]. apply (C75_made_added cc c0 d c1 M Pv H1).
Qed.
Print Assumptions C75_made_data.

(** An example: three witnesses; the result read from its text and collated again. *)
Definition again_case : collation := [words "A" ["a"; "b"; "c"]; words "B" ["a"; "c"]; words "C" ["b"; "c"]].
Example C75_example : topo_ok kahn /\ structural kahn /\ good_sigla again_case /\ made_tokens again_case /\
  exists j v d, collate ascii_cc kahn sample_ratio again_case (plain_options "json") = Ok (OJson j) /\
    json_read (json_dumps None 0 j) = Some v /\ fed_back v d /\
    exists j', collate_dict ascii_cc kahn sample_ratio d (plain_options "json") = Ok (OJson j') /\ json_dumps None 0 j' = json_dumps None 0 j.
Proof.
  assert (G : good_sigla again_case) by (split; [repeat constructor; cbn; intuition discriminate|cbn; intuition discriminate]).
  assert (M : made_tokens again_case).
  { intros w t Hw Ht. unfold again_case, words in Hw. repeat (destruct Hw as [<-|Hw]; [cbn [w_toks map] in Ht; repeat (destruct Ht as [<-|Ht];
      [split; [apply given_n; right; left; reflexivity|constructor; [repeat constructor; cbn; intuition discriminate|repeat constructor]]|]); contradiction|]). contradiction. }
  split; [exact kahn_topo_ok|]. split; [exact kahn_structural|]. split; [exact G|]. split; [exact M|].
  destruct (collate ascii_cc kahn sample_ratio again_case (plain_options "json")) as [x|] eqn:E; [|exfalso; vm_compute in E; discriminate].
  assert (exists j, x = OJson j) as [j ->] by (clear G M; vm_compute in E; injection E as <-; eexists; reflexivity).
  destruct (C75_input_exists ascii_cc kahn sample_ratio again_case (plain_options "json") j None kahn_topo_ok G eq_refl eq_refl E) as [v [d [H1 H2]]].
  exists j, v, d. split; [reflexivity|]. split; [exact H1|]. split; [exact H2|].
  apply (C75_fixed_point ascii_cc kahn sample_ratio again_case (plain_options "json") j None v d kahn_topo_ok kahn_structural G M eq_refl eq_refl); [|exact E|exact H1|exact H2].
  intros f Hf; discriminate Hf.
Qed.
