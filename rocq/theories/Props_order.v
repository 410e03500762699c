(** Dictionaries are unordered: the order of entries (C58), and input from JSON texts (C59). *)
From Verif Require Import Py Lib TokenModel SuffixModel IndexModel GraphModel AlignModel TableModel NearModel ExportModel CollateModel
  GraphSpec JsonModel JsonSpec JsonInModel JsonProof ParamSpec ParamProof OrderSpec OrderProof Samples.
From Coq Require Import QArith Permutation.
Open Scope list_scope.
Open Scope nat_scope.

(** C58: inputs that differ in the order of the entries of dictionaries give the same answer: the same
    error, the same text, JSON outputs with the same text, tables and graphs holding the same tokens. *)
Theorem C58_entry_order : forall cc topo ratio d d' o, structural topo ->
  same_value (JObj d) (JObj d') -> proper (JObj d) -> order_blind (o_filter o) ->
  same_result (collate_dict cc topo ratio d o) (collate_dict cc topo ratio d' o).
Proof. intros. apply collate_dict_order; assumption. Qed.
Print Assumptions C58_entry_order.

Theorem C58_no_filter : order_blind None.
Proof. intros f H. discriminate. Qed.

(** An input written in two orders. *)
Definition tok1 : jdict := [(lit "t", JStr (lit "Cat ")); (lit "n", JStr (lit "cat")); (lit "at", JObj [(lit "page", JNum 3); (lit "line", JNum 12)])].
Definition tok2 : jdict := [(lit "n", JStr (lit "cat")); (lit "at", JObj [(lit "line", JNum 12); (lit "page", JNum 3)]); (lit "t", JStr (lit "Cat "))].
Definition other (d : jdict) : jval := JObj [(lit "id", JStr (lit "B")); (lit "tokens", JArr [JObj [(lit "t", JStr (lit "a "))]; JObj d])].
Definition input1 : jdict := [(lit "witnesses", JArr [JObj [(lit "id", JStr (lit "A")); (lit "content", JStr (lit "the cat"))]; other tok1])].
Definition input2 : jdict := [(lit "witnesses", JArr [JObj [(lit "content", JStr (lit "the cat")); (lit "id", JStr (lit "A"))]; other tok2])].
Definition asking (out : str) : options :=
  {| o_output := out; o_vertical := false; o_segmentation := false; o_near := false; o_astar := false; o_transp := false; o_filter := None; o_indent := false |}.
Ltac nodup_keys := repeat constructor; cbn; intuition discriminate.
Lemma input1_proper : proper (JObj input1).
Proof.
  repeat (constructor; try nodup_keys).
Qed.
Lemma inputs_same : same_value (JObj input1) (JObj input2).
Proof.
  apply sj_obj with (e := input1); [reflexivity|]. constructor; [split; [reflexivity|]|constructor]. cbn [snd]. constructor. constructor; [|constructor; [|constructor]].
  - apply sj_obj with (e := [(lit "content", JStr (lit "the cat")); (lit "id", JStr (lit "A"))]); [apply perm_swap|].
    repeat (constructor; [split; [reflexivity|constructor]|]). constructor.
  - eapply sj_obj; [reflexivity|]. constructor; [split; [reflexivity|constructor]|]. constructor; [split; [reflexivity|]|constructor]. cbn [snd].
    constructor. constructor; [eapply sj_obj; [reflexivity|]; constructor; [split; [reflexivity|constructor]|constructor]|]. constructor; [|constructor].
    apply sj_obj with (e := [(lit "n", JStr (lit "cat")); (lit "at", JObj [(lit "page", JNum 3); (lit "line", JNum 12)]); (lit "t", JStr (lit "Cat "))]).
    + change tok1 with ([(lit "t", JStr (lit "Cat "))] ++ [(lit "n", JStr (lit "cat")); (lit "at", JObj [(lit "page", JNum 3); (lit "line", JNum 12)])]).
      apply Permutation_app_comm.
    + constructor; [split; [reflexivity|constructor]|]. constructor; [split; [reflexivity|]|].
      * cbn [snd]. apply sj_obj with (e := [(lit "line", JNum 12); (lit "page", JNum 3)]); [apply perm_swap|]. repeat (constructor; [split; [reflexivity|constructor]|]). constructor.
      * constructor; [split; [reflexivity|constructor]|constructor].
Qed.
Definition written (r : res output) : option str := match r with Ok (OJson v) => Some (json_dumps None 0 v) | _ => None end.
Example C58_example :
  same_value (JObj input1) (JObj input2) /\ proper (JObj input1) /\ input1 <> input2 /\
  collate_dict ascii_cc kahn sample_ratio input1 (asking (lit "json")) <> collate_dict ascii_cc kahn sample_ratio input2 (asking (lit "json")) /\
  written (collate_dict ascii_cc kahn sample_ratio input1 (asking (lit "json"))) = written (collate_dict ascii_cc kahn sample_ratio input2 (asking (lit "json"))) /\
  written (collate_dict ascii_cc kahn sample_ratio input1 (asking (lit "json"))) <> None.
Proof.
  split; [exact inputs_same|]. split; [exact input1_proper|]. split; [discriminate|]. split; [vm_compute; discriminate|]. split; [vm_compute; reflexivity|vm_compute; discriminate].
Qed.

(** C59: a collation read from a file with a JSON text that says the same as a dictionary is collated
    as the dictionary, whoever wrote the text. *)
Lemma fresh_pairs : forall (l acc : jdict), NoDup (map fst (acc ++ l)) -> fold_left (fun a m => dset str_eqb (fst m) (snd m) a) l acc = acc ++ l.
Proof.
  induction l as [|[k v] l IH]; intros acc N; cbn [fold_left fst snd]; [rewrite app_nil_r; reflexivity|].
  assert (E : dset str_eqb k v acc = acc ++ [(k, v)]).
  { rewrite map_app in N. cbn [map fst] in N. apply NoDup_remove_2 in N. assert (NI : ~ In k (map fst acc)) by (intros C; apply N; apply in_or_app; auto).
    clear -NI. induction acc as [|[k2 v2] acc IH]; [reflexivity|]. cbn [map fst In] in NI. cbn [dset app].
    destruct (str_eqb k k2) eqn:E; [apply str_eqb_ok in E; subst; tauto|]. f_equal. apply IH. tauto. }
  rewrite E. rewrite IH; rewrite <- app_assoc; [reflexivity|exact N].
Qed.
Lemma python_proper : forall v, proper v -> python_value v = v.
Proof.
  apply (jval_induction (fun v => proper v -> python_value v = v)); try reflexivity.
  - intros l IH P. inversion P as [| | | |? FP|]; subst. rewrite Forall_forall in FP. cbn [python_value]. f_equal. rewrite <- (map_id l) at 2. apply map_ext_in. auto.
  - intros d IH P. inversion P as [| | | | |? ND FP]; subst. rewrite Forall_forall in FP. cbn [python_value]. f_equal.
    assert (E : map (fun m => (fst m, python_value (snd m))) d = d).
    { rewrite <- (map_id d) at 2. apply map_ext_in. intros [k v] Hv. cbn [fst snd]. f_equal. apply (IH k v Hv). apply (FP _ Hv). }
    rewrite E. apply (fresh_pairs d []). exact ND.
Qed.
Lemma load_order : forall cc topo ratio text v d o, structural topo -> json_read text = Some v -> same_value (JObj d) v -> proper (JObj d) ->
  order_blind (o_filter o) ->
  same_result (collate_dict cc topo ratio d o) (c <- create_from_json cc (JsonFile text) ;; collate cc topo ratio c o).
Proof.
  intros cc topo ratio text v d o TS R S P OB. unfold create_from_json, json_load. rewrite R. cbn [bind].
  rewrite (python_proper v) by (eapply same_value_proper; eassumption). inversion S as [| | | | |? e d' PE F]; subst. cbn [as_dict bind].
  apply (collate_dict_order cc topo ratio TS d d' o); assumption.
Qed.

Theorem C59_from_json : forall cc topo ratio text v d o, structural topo -> json_read text = Some v -> same_value (JObj d) v -> proper (JObj d) ->
  order_blind (o_filter o) ->
  same_result (collate_dict cc topo ratio d o) (c <- create_from_json cc (JsonFile text) ;; collate cc topo ratio c o).
Proof. exact load_order. Qed.
Print Assumptions C59_from_json.

(** In particular for the text that json.dumps writes for the dictionary, with any indentation. *)
Theorem C59_dumps : forall cc topo ratio indent d o, structural topo -> proper (JObj d) -> order_blind (o_filter o) ->
  same_result (collate_dict cc topo ratio d o) (c <- create_from_json cc (JsonFile (json_dumps indent 0 (JObj d))) ;; collate cc topo ratio c o).
Proof.
  intros cc topo ratio indent d o TS P OB. eapply load_order; [assumption|apply json_read_dumps| |assumption|assumption]. apply canon_same.
Qed.
Print Assumptions C59_dumps.

(** The comment in the code says that a string can be given; it cannot. *)
Theorem C59_string_refuted : forall cc text, create_from_json cc (JsonString text) = Raise AttributeError.
Proof. reflexivity. Qed.
(** A text that is not JSON is a ValueError, a JSON text that is not an object a TypeError. *)
Theorem C59_bad_text : forall cc text, json_read text = None -> create_from_json cc (JsonFile text) = Raise ValueError.
Proof. intros cc text H. unfold create_from_json, json_load. rewrite H. reflexivity. Qed.
Theorem C59_not_object : forall cc text v, json_read text = Some v -> (forall d, v <> JObj d) -> create_from_json cc (JsonFile text) = Raise TypeError.
Proof. intros cc text v H N. unfold create_from_json, json_load. rewrite H. cbn [bind]. destruct v; try reflexivity. exfalso. eapply N. reflexivity. Qed.

(** Of two entries with the same name in a JSON object the last counts. *)
Definition rows_of (r : res output) : option (list (str * list bool)) :=
  match r with Ok (OTable t) => Some (map (fun r => (r_header r, map (fun x => match x with Some _ => true | None => false end) (r_cells r))) (t_rows t)) | _ => None end.
Example C59_example :
  json_dumps (Some 1) 0 (JObj input1) <> json_dumps None 0 (JObj input1) /\
  rows_of (c <- create_from_json ascii_cc (JsonFile (json_dumps (Some 1) 0 (JObj input1))) ;; collate ascii_cc kahn sample_ratio c (asking (lit "table"))) =
  Some [(lit "A", [true; true]); (lit "B", [true; true])] /\
  python_value (JObj [(lit "id", JStr (lit "A")); (lit "n", JNum 1); (lit "id", JStr (lit "B"))]) = JObj [(lit "id", JStr (lit "B")); (lit "n", JNum 1)].
Proof. split; [vm_compute; discriminate|]. split; vm_compute; reflexivity. Qed.
