(** Property C51: the JSON output as text. *)
From Verif Require Import Py TokenModel SuffixModel IndexModel GraphModel AlignModel TableModel NearModel ExportModel
  CollateModel Lib GraphSpec TableSpec CollateSpec ExportSpec Samples TopoProof ResultProof OutputProof ExportProof Props_export JsonModel JsonSpec JsonProof LineSpec LineProof.
From Coq Require Import Permutation QArith.
Open Scope list_scope.
Open Scope nat_scope.

(** ** C51: whatever the strings contain and however it is indented, the text is a JSON text, and
    reading it gives the value back. *)
Theorem C51_json_text : forall indent v, exists v', json_read (json_dumps indent 0 v) = Some v' /\ same_value v v'.
Proof. intros indent v. exists (canon v). split; [apply json_read_dumps|apply canon_same]. Qed.
Print Assumptions C51_json_text.

Lemma map_canon_str : forall l, map canon (map JStr l) = map JStr l.
Proof. intros l. rewrite map_map. reflexivity. Qed.
Lemma canon_result : forall rows wits, canon (json_result rows wits) = json_result (map (map canon) rows) wits.
Proof.
  intros rows wits. unfold json_result. cbn [canon map fst snd]. rewrite map_canon_str, map_map.
  replace (map (fun x => canon (JArr x)) rows) with (map JArr (map (map canon) rows)) by (rewrite map_map; reflexivity). reflexivity.
Qed.
Lemma canon_tokens : forall row, Forall2 same_value (json_tokens row) (json_tokens (map canon row)).
Proof.
  induction row as [|x row IH]; [constructor|]. unfold json_tokens in *. cbn [map flat_map]. apply Forall2_app; [|exact IH].
  destruct x as [| | | |l|]; try constructor. cbn [canon]. induction l as [|y l IHl]; cbn [map]; constructor; [apply canon_same|exact IHl].
Qed.

(** For the output of collate: a reader finds the witnesses under "witnesses" and, under "table", for
    each witness a row whose tokens are the witness's tokens, in order, with all the user's data. *)
Theorem C51_collate_json : forall cc topo ratio c o j indent, topo_ok topo -> good_sigla c -> no_internal_keys c ->
  o_near o = false -> o_vertical o = false -> collate cc topo ratio c o = Ok (OJson j) ->
  exists rows pos, json_read (json_dumps indent 0 j) = Some (json_result rows (map w_sigil c)) /\
    NoDup (concat pos) /\ length rows = length c /\ length pos = length c /\
    forall i w, nth_error c i = Some w -> exists row ps, nth_error rows i = Some row /\ nth_error pos i = Some ps /\ length ps = length (w_toks w) /\
      Forall2 same_value (map (fun '(t, p) => json_token (w_sigil w) t p) (combine (w_toks w) ps)) (json_tokens row).
Proof.
  intros cc topo ratio c o j indent TO G NK Hn Hv H. destruct (C39_token_data cc topo ratio c o j TO G NK Hn Hv H) as [rows [pos [-> [P1 [P2 [P3 P4]]]]]].
  exists (map (map canon) rows), pos. split; [rewrite json_read_dumps, canon_result; reflexivity|]. split; [assumption|]. split; [rewrite map_length; assumption|]. split; [assumption|].
  intros i w Hw. destruct (P4 i w Hw) as [row [ps [Q1 [Q2 [Q3 Q4]]]]]. exists (map canon row), ps. split; [apply map_nth_error; assumption|]. split; [assumption|]. split; [assumption|].
  rewrite <- Q4. apply canon_tokens.
Qed.
Print Assumptions C51_collate_json.

(** The export functions called on a table that collate returned, with their arguments [indent]
    and [status]: the text read again has the table, the witnesses and, if asked for, the variant
    status of every column.  An entry is read up to the order of the members of its tokens. *)
Definition read_entry (x : cell) (v : jval) : Prop := exists v0, json_entry x v0 /\ same_value v0 v.
Lemma read_entries : forall l, (forall ts, In (Some ts) l -> ts <> []) -> Forall2 read_entry l (map canon (map cell_json l)).
Proof.
  induction l as [|x l IH]; intros N; cbn [map]; constructor; [|apply IH; intros ts Ht; apply N; right; assumption].
  exists (cell_json x). split; [|apply canon_same].
  destruct x as [[|tk ts]|]; cbn [json_entry cell_json]; [destruct (N [] (or_introl eq_refl) eq_refl)|split; [discriminate|reflexivity]|reflexivity].
Qed.
Theorem C51_export_functions : forall cc topo ratio c o t indent status, topo_ok topo -> good_sigla c -> collate cc topo ratio c o = Ok (OTable t) ->
  (exists rows, Forall2 (fun ro row => Forall2 read_entry (r_cells ro) row) (t_rows t) rows /\
    json_read (json_text indent status t) =
      Some (JObj ((if status then [(lit "status", JArr (map (fun col => JBool (c_variant col)) (t_columns t)))] else []) ++
                  [(lit "table", JArr (map JArr rows)); (lit "witnesses", JArr (map JStr (map w_sigil c)))]))) /\
  (exists cols, Forall2 (fun col row => Forall2 (fun w v => read_entry (dget str_eqb (w_sigil w) (c_cells col)) v) c row) (t_columns t) cols /\
    json_read (vertical_json_text indent t (map w_sigil c)) = Some (json_result cols (map w_sigil c))).
Proof.
  intros cc topo ratio c o t indent status TO G H. pose proof (table_good cc topo ratio TO c _ t G H) as GT.
  destruct G as [ND NE]. destruct (table_shape cc topo ratio TO c _ t ND NE H) as [T1 [T2 _]]. split.
  - exists (map (map canon) (json_rows t)). split.
    + unfold json_rows. clear - T2. induction (t_rows t) as [|ro rows IH]; cbn [map]; constructor; [|apply IH; intros r Hr; apply T2; right; assumption].
      apply read_entries. apply (T2 ro (or_introl eq_refl)).
    + unfold json_text. rewrite json_read_dumps. f_equal. pose proof (export_json_rows c t GT) as E. unfold export_json in E |- *. rewrite app_nil_r in E.
      unfold json_result in E. injection E as E1 E2. rewrite E1, E2. cbn [app].
      assert (A : canon (JArr (map JArr (json_rows t))) = JArr (map JArr (map (map canon) (json_rows t)))) by (cbn [canon]; rewrite !map_map; reflexivity).
      assert (B : canon (JArr (map JStr (map w_sigil c))) = JArr (map JStr (map w_sigil c))) by (cbn [canon]; rewrite map_canon_str; reflexivity).
      assert (D : canon (JArr (map (fun col => JBool (c_variant col)) (t_columns t))) = JArr (map (fun col => JBool (c_variant col)) (t_columns t)))
        by (cbn [canon]; rewrite map_map; reflexivity).
      revert A B D. generalize (JArr (map JArr (json_rows t))) (JArr (map JStr (map w_sigil c))) (JArr (map (fun col => JBool (c_variant col)) (t_columns t))).
      intros a b d A B D. destruct status; cbn [app canon map fst snd]; rewrite A, B, ?D; reflexivity.
  - exists (map (map canon) (json_columns t (map w_sigil c))). split.
    + unfold json_columns. assert (N : forall col sg ts, In col (t_columns t) -> dget str_eqb sg (c_cells col) = Some ts -> In sg (map w_sigil c) -> ts <> []).
      { intros col sg ts Hc Hd Hs. rewrite <- T1 in Hs. apply in_map_iff in Hs as [ro [E Hr]]. destruct (T2 ro Hr) as [_ N]. apply N.
        pose proof (gt_rows _ _ GT) as R. rewrite R in Hr. apply in_map_iff in Hr as [w [E' _]]. subst ro. cbn in E. subst sg. cbn [construct_row r_cells].
        apply in_map_iff. exists col. split; assumption. }
      clear - N. induction (t_columns t) as [|col cols IH]; cbn [map]; constructor; [|apply IH; intros cl sg ts Hc; apply N; right; assumption].
      assert (N' : forall sg ts, dget str_eqb sg (c_cells col) = Some ts -> In sg (map w_sigil c) -> ts <> []) by (intros sg ts; apply N; left; reflexivity).
      clear - N'. induction c as [|w c IH]; cbn [map]; constructor; [|apply IH; intros sg ts Hd Hs; apply (N' sg ts Hd); right; assumption].
      exists (cell_json (dget str_eqb (w_sigil w) (c_cells col))). split; [|apply canon_same]. specialize (N' (w_sigil w)).
      destruct (dget str_eqb (w_sigil w) (c_cells col)) as [[|tk ts]|]; cbn [json_entry cell_json]; [|split; [discriminate|reflexivity]|reflexivity].
      exfalso. apply (N' [] eq_refl); [left; reflexivity|reflexivity].
    + unfold vertical_json_text. rewrite json_read_dumps, (export_vertical_columns c t (conj ND NE) GT), canon_result. reflexivity.
Qed.
Print Assumptions C51_export_functions.

(** A text with quotation marks, a line feed, a control character and a tag. *)
Definition awkward : jval := JObj [(lit "t", JStr ([34; 10; 1; 92; 233]%N ++ lit "</x>")); (lit "n", JArr [JNum (-12); JNull; JBool true; JObj []])].
Example C51_example : json_read (json_dumps None 0 awkward) = Some (JObj [(lit "n", JArr [JNum (-12); JNull; JBool true; JObj []]); (lit "t", JStr ([34; 10; 1; 92; 233]%N ++ lit "</x>"))]) /\
  json_read (json_dumps (Some 2) 0 awkward) = json_read (json_dumps None 0 awkward).
Proof. vm_compute. split; reflexivity. Qed.

(** The layout: without indentation the text is one line, and with it every line is indented by as
    many steps as arrays and objects are open. *)
Theorem C51_layout : forall v, (forall k, laid_out k (json_dumps (Some k) 0 v)) /\ ~ In 10%N (json_dumps None 0 v).
Proof. intros v. split; [intros k; apply dumps_place|apply dumps_line]. Qed.
Print Assumptions C51_layout.
(** The two export functions return such texts. *)
Theorem C51_text_layout : forall t status sigla,
  (forall k, laid_out k (json_text (Some k) status t) /\ laid_out k (vertical_json_text (Some k) t sigla)) /\
  ~ In 10%N (json_text None status t) /\ ~ In 10%N (vertical_json_text None t sigla).
Proof. intros t status sigla. split; [intros k; split; apply dumps_place|split; apply dumps_line]. Qed.
Print Assumptions C51_text_layout.
Example C51_layout_example : json_dumps (Some 2) 0 (JObj [(lit "a", JArr [JNum 1; JNum 2])]) =
  lit "{" ++ [10%N] ++ lit "  ""a"": [" ++ [10%N] ++ lit "    1," ++ [10%N] ++ lit "    2" ++ [10%N] ++ lit "  ]" ++ [10%N] ++ lit "}" /\
  ~ laid_out 2 (lit "[" ++ [10%N] ++ lit "    1" ++ [10%N] ++ lit "]").
Proof. split; [reflexivity|]. vm_compute. discriminate. Qed.
