(** Names of witnesses in the csv and tsv outputs (C62). *)
From Verif Require Import Py Lib TokenModel SuffixModel IndexModel GraphModel AlignModel TableModel NearModel ExportModel
  CollateModel GraphSpec CollateSpec TokenSpec ParamSpec ParamProof RenameSpec RenameProof ResultProof Samples Props_rename.
From Coq Require Import QArith.
Open Scope list_scope.
Open Scope nat_scope.

(** The csv (or tsv) text of rows with the given names and fields: what csv.writer writes, with the
    line ends changed by io.StringIO. *)
Definition csv_of (tsv : bool) (names : list str) (rows : list (list (option str))) : str :=
  flat_map (fun r => universal_newlines (csv_row (if tsv then c_tab else c_comma) (Some (fst r) :: snd r))) (combine names rows).

Lemma other_key : forall (k k' : str) (d : jdict), str_eqb k' k = false -> dget str_eqb k (ddel str_eqb k' d) = dget str_eqb k d.
Proof.
  intros k k' d N. induction d as [|[a v] d IH]; [reflexivity|]. cbn [ddel dget]. destruct (str_eqb k' a) eqn:E; [|cbn [dget]; rewrite IH; reflexivity].
  apply str_eqb_ok in E as <-. destruct (str_eqb k k') eqn:E; [|reflexivity]. apply str_eqb_ok in E as ->. rewrite (proj2 (str_eqb_ok k' k') eq_refl) in N. discriminate.
Qed.

Lemma user_t : forall t t' : token, user_entries (tk_data t') = user_entries (tk_data t) -> token_t t' = token_t t.
Proof.
  intros t t' E. unfold token_t, dgetE.
  assert (G : forall d, dget str_eqb (lit "t") d = dget str_eqb (lit "t") (user_entries d)).
  { intros d. unfold user_entries. rewrite !other_key; [reflexivity| |]; reflexivity. }
  rewrite (G (tk_data t)), (G (tk_data t')), E. reflexivity.
Qed.

Lemma same_text : forall l l', same_tokens l l' -> mapM token_t l' = mapM token_t l.
Proof.
  intros l l' [_ [_ E]]. revert l' E. induction l as [|t l IH]; intros [|t' l'] E; try discriminate; [reflexivity|].
  cbn [map] in E. injection E as E1 E2. cbn [mapM]. rewrite (user_t t t' E1), (IH l' E2). reflexivity.
Qed.

Lemma same_cell_string : forall x y : cell, match x, y with None, None => True | Some l, Some l' => same_tokens l l' | _, _ => False end -> cell_string y = cell_string x.
Proof.
  intros [l|] [l'|] H; try contradiction; [|reflexivity]. pose proof (same_text l l' H) as E. destruct H as [H _].
  destruct l as [|t l], l' as [|t' l']; try discriminate H; [reflexivity|]. unfold cell_string, cell_text. rewrite E. reflexivity.
Qed.

Lemma same_row_strings : forall r r', Forall2 (fun x y : cell => match x, y with None, None => True | Some l, Some l' => same_tokens l l' | _, _ => False end) (r_cells r) (r_cells r') ->
  row_strings r' = row_strings r.
Proof.
  intros r r' F. unfold row_strings. induction F as [|x y l l' H F IH]; [reflexivity|]. cbn [mapM]. rewrite (same_cell_string x y H), IH. reflexivity.
Qed.

Lemma same_rows : forall tsv rows rows', Forall2 (fun r r' => row_strings r' = row_strings r) rows rows' ->
  match mapM row_strings rows with
  | Ok L => length L = length rows /\
      export_csv tsv {| t_columns := []; t_rows := rows |} = Ok (csv_of tsv (map r_header rows) L) /\
      export_csv tsv {| t_columns := []; t_rows := rows' |} = Ok (csv_of tsv (map r_header rows') L)
  | Raise e => export_csv tsv {| t_columns := []; t_rows := rows |} = Raise e /\ export_csv tsv {| t_columns := []; t_rows := rows' |} = Raise e
  end.
Proof.
  intros tsv rows rows' F. unfold export_csv, csv_of. cbn [t_rows].
  induction F as [|r r' rows rows' E F IH]; [cbn; auto|]. cbn [mapM map]. rewrite E. destruct (row_strings r) as [l|e]; cbn [bind]; [|auto].
  destruct (mapM row_strings rows) as [L|e]; cbn [bind].
  - destruct IH as [IL [I1 I2]]. cbn [length combine flat_map fst snd]. split; [lia|].
    split.
    + apply bind_ok in I1 as [x1 [X1 I1]]. rewrite X1. cbn [bind]. injection I1 as I1. cbn [flat_map]. rewrite I1. reflexivity.
    + apply bind_ok in I2 as [x2 [X2 I2]]. rewrite X2. cbn [bind]. injection I2 as I2. cbn [flat_map]. rewrite I2. reflexivity.
  - destruct IH as [I1 I2].
    split; [destruct (mapM _ rows) as [x|e1]; cbn [bind] in I1 |- *; [discriminate|exact I1]|destruct (mapM _ rows') as [x|e1]; cbn [bind] in I2 |- *; [discriminate|exact I2]].
Qed.

(** ** C62: the csv and tsv texts have the same fields, row for row, after the names; if there is an exception it is the same. *)
Theorem C62_csv : forall cc topo ratio c c' o, by_shape topo -> renamed c c' -> o_output o = lit "csv" \/ o_output o = lit "tsv" ->
  match collate cc topo ratio c o with
  | Ok (OCsv s) => exists rows, length rows = length c /\ s = csv_of (str_eqb (o_output o) (lit "tsv")) (map w_sigil c) rows /\
      collate cc topo ratio c' o = Ok (OCsv (csv_of (str_eqb (o_output o) (lit "tsv")) (map w_sigil c') rows))
  | Ok _ => False
  | Raise e => collate cc topo ratio c' o = Raise e
  end.
Proof.
  intros cc topo ratio c c' o BS RN OO.
  assert (CV : forall c, collate cc topo ratio c o = match collate cc topo ratio c (set_output o (lit "table")) with
    | Ok (OTable t) => s <- export_csv (str_eqb (o_output o) (lit "tsv")) t ;; Ok (OCsv s) | Ok x => Ok x | Raise e => Raise e end).
  { intros c0. unfold collate. change (collate_graph cc topo ratio c0 (set_output o (lit "table"))) with (collate_graph cc topo ratio c0 o).
    destruct (collate_graph cc topo ratio c0 o) as [[g r]|e]; cbn [bind]; [|reflexivity]. unfold render. cbn [set_output o_output].
    destruct OO as [-> | ->]; destruct (construct_table (map w_sigil c0) g r) as [t|e]; reflexivity. }
  rewrite !CV. pose proof (C62_renaming cc topo ratio c c' (set_output o (lit "table")) BS RN eq_refl) as T.
  assert (HD : forall t, collate cc topo ratio c (set_output o (lit "table")) = Ok (OTable t) -> map r_header (t_rows t) = map w_sigil c).
  { intros t H. apply collate_table_inv in H as [g [r [_ H]]]. unfold construct_table in H. apply bind_ok in H as [cols [_ H]]. injection H as <-. cbn [t_rows].
    rewrite map_map. cbn [r_header]. apply map_id. }
  destruct (collate cc topo ratio c (set_output o (lit "table"))) as [[]|e] eqn:E; try contradiction; [|rewrite T; reflexivity].
  destruct T as [t' [-> [[_ RT] H']]]. specialize (HD _ eq_refl).
  assert (F : Forall2 (fun r r' => row_strings r' = row_strings r) (t_rows t) (t_rows t')).
  { clear - RT. induction RT as [|r r' l l' H F IH]; constructor; [apply same_row_strings; exact H|exact IH]. }
  set (tsv := str_eqb (o_output o) (lit "tsv")). pose proof (same_rows tsv _ _ F) as S.
  change (export_csv tsv {| t_columns := []; t_rows := t_rows t |}) with (export_csv tsv t) in S.
  change (export_csv tsv {| t_columns := []; t_rows := t_rows t' |}) with (export_csv tsv t') in S.
  destruct (mapM row_strings (t_rows t)) as [L|e].
  - destruct S as [SL [-> ->]]. cbn [bind]. exists L. rewrite <- HD, <- H'. split; [|auto]. rewrite SL. rewrite <- (map_length r_header), HD, map_length. reflexivity.
  - destruct S as [-> ->]. reflexivity.
Qed.
Print Assumptions C62_csv.

Example C62_csv_example : exists s, collate ascii_cc kahn sample_ratio (named "A" "B" "C") (plain_options "csv") = Ok (OCsv s) /\
  s = csv_of false [lit "A"; lit "B"; lit "C"]
    [[Some (lit "the"); Some (lit "black"); Some (lit "cat"); None]; [Some (lit "the"); None; Some (lit "cat"); Some (lit "sat")]; [Some (lit "a"); Some (lit "black"); Some (lit "cat"); Some (lit "sat")]].
Proof. eexists. split; [vm_compute; reflexivity|vm_compute; reflexivity]. Qed.

(** ** C62: the JSON output names the witnesses by their new names and has, at the same places, null
    or arrays of as many tokens, with the same data as given by the user. *)
Definition json_of (names : list str) (rows : list (list jval)) : jval :=
  JObj [(lit "table", JArr (map JArr rows)); (lit "witnesses", JArr (map JStr names))].
Definition alike (x y : jval) : Prop :=
  x = JNull /\ y = JNull \/
  exists l l', x = JArr (map JObj l) /\ y = JArr (map JObj l') /\ Forall2 (fun d d' => user_entries d' = user_entries d) l l'.

Lemma cell_alike : forall x y : cell, match x, y with None, None => True | Some l, Some l' => same_tokens l l' | _, _ => False end -> alike (cell_json x) (cell_json y).
Proof.
  intros [l|] [l'|] H; try contradiction; [|left; auto]. destruct H as [P [_ E]].
  destruct l as [|t l], l' as [|t' l']; try discriminate P; [left; auto|]. right. exists (map tk_data (t :: l)), (map tk_data (t' :: l')).
  unfold cell_json. rewrite !map_map. split; [reflexivity|]. split; [reflexivity|]. clear P. revert E. generalize (t :: l) (t' :: l'). clear.
  induction l as [|t l IH]; intros [|t' l'] E; try discriminate; [constructor|]. cbn [map] in *. injection E as E1 E2. constructor; [exact E1|exact (IH l' E2)].
Qed.

Theorem C62_json : forall cc topo ratio c c' o, by_shape topo -> renamed c c' -> o_output o = lit "json" -> o_vertical o = false ->
  match collate cc topo ratio c o with
  | Ok (OJson j) => exists rows rows', j = json_of (map w_sigil c) rows /\ length rows = length c /\ Forall2 (Forall2 alike) rows rows' /\
      collate cc topo ratio c' o = Ok (OJson (json_of (map w_sigil c') rows'))
  | Ok _ => False
  | Raise e => collate cc topo ratio c' o = Raise e
  end.
Proof.
  intros cc topo ratio c c' o BS RN OO OV.
  assert (CV : forall c, collate cc topo ratio c o = match collate cc topo ratio c (set_output o (lit "table")) with
    | Ok (OTable t) => Ok (OJson (export_json false t)) | Ok x => Ok x | Raise e => Raise e end).
  { intros c0. unfold collate. change (collate_graph cc topo ratio c0 (set_output o (lit "table"))) with (collate_graph cc topo ratio c0 o).
    destruct (collate_graph cc topo ratio c0 o) as [[g r]|e]; cbn [bind]; [|reflexivity]. unfold render. cbn [set_output o_output].
    rewrite OO, OV; destruct (construct_table (map w_sigil c0) g r) as [t|e]; reflexivity. }
  rewrite !CV. pose proof (C62_renaming cc topo ratio c c' (set_output o (lit "table")) BS RN eq_refl) as T.
  assert (HD : forall t, collate cc topo ratio c (set_output o (lit "table")) = Ok (OTable t) -> map r_header (t_rows t) = map w_sigil c).
  { intros t H. apply collate_table_inv in H as [g [r [_ H]]]. unfold construct_table in H. apply bind_ok in H as [cols [_ H]]. injection H as <-. cbn [t_rows].
    rewrite map_map. cbn [r_header]. apply map_id. }
  destruct (collate cc topo ratio c (set_output o (lit "table"))) as [[]|e] eqn:E; try contradiction; [|rewrite T; reflexivity].
  destruct T as [t' [-> [[_ RT] H']]]. specialize (HD _ eq_refl).
  exists (map (fun r => map cell_json (r_cells r)) (t_rows t)), (map (fun r => map cell_json (r_cells r)) (t_rows t')).
  unfold export_json, json_of. rewrite <- HD, <- H', !map_map. split; [reflexivity|]. rewrite map_length. split; [rewrite <- (map_length r_header), HD, map_length; reflexivity|].
  split; [|reflexivity]. clear - RT. induction RT as [|r r' l l' H F IH]; [constructor|]. cbn [map]. constructor; [|exact IH].
  induction H as [|x y a b H F' IH']; [constructor|]. cbn [map]. constructor; [apply cell_alike; exact H|exact IH'].
Qed.
Print Assumptions C62_json.

Example C62_json_example : renamed (named "A" "B" "C") (named "Codex" "Apograph" "B") /\
  exists j, collate ascii_cc kahn sample_ratio (named "A" "B" "C") (plain_options "json") = Ok (OJson j).
Proof. split; [exact (proj1 C62_example)|]. eexists. vm_compute. reflexivity. Qed.
