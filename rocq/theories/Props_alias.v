(** The caller's token dictionaries as objects (C56). *)
From Verif Require Import Py Lib TokenModel SuffixModel IndexModel GraphModel AlignModel TableModel NearModel ExportModel
  CollateModel AliasModel AliasSpec GraphSpec CollateSpec AliasProof Samples TopoProof DrawProof.
From Coq Require Import QArith ListDec.
Open Scope nat_scope.

(** C56: collate gives for token objects what it gives for their contents.  This holds when no
    dictionary is given for two tokens. *)
Theorem C56_contents_partial : forall cc topo ratio h (data : list (str * list nat)) o,
  topo_ok topo -> NoDup (map fst data) -> ~ In ([] : str) (map fst data) -> no_sharing data ->
  rcollate cc topo ratio h data o = collate_dict cc topo ratio (copied h data) o.
Proof. intros. apply rcollate_unshared; assumption. Qed.
Print Assumptions C56_contents_partial.

(** A dictionary given for two tokens, in one witness or in two: collate never returns a result,
    whatever the options and whatever the other tokens. *)
Theorem C56_sharing_refuted : forall cc topo ratio h (data : list (str * list nat)) o,
  NoDup (map fst data) -> ~ no_sharing data -> forall x, rcollate cc topo ratio h data o <> Ok x.
Proof. intros cc topo ratio h data o ND NS x H. apply NS. eapply rcollate_needs; eauto. Qed.
Print Assumptions C56_sharing_refuted.

(** The contents alone would have been collated. *)
Definition one_dict : heap := fun _ => [(lit "t", JStr (lit "a"))].
Example C56_sharing_example :
  ~ no_sharing [(lit "A", [0]); (lit "B", [0])] /\ ~ no_sharing [(lit "A", [0; 0])] /\
  rcollate ascii_cc kahn sample_ratio one_dict [(lit "A", [0]); (lit "B", [0])] default_options = Raise KeyError /\
  rcollate ascii_cc kahn sample_ratio one_dict [(lit "A", [0; 0])] default_options = Raise KeyError /\
  (exists x, rcollate ascii_cc kahn sample_ratio one_dict [(lit "A", [0]); (lit "B", [1])] default_options = Ok x) /\
  (exists x, collate_dict ascii_cc kahn sample_ratio (copied one_dict [(lit "A", [0; 0])]) default_options = Ok x).
Proof.
  split; [intros N; inversion N as [|? ? H]; apply H; left; reflexivity|]. split; [intros N; inversion N as [|? ? H]; apply H; left; reflexivity|].
  split; [vm_compute; reflexivity|]. split; [vm_compute; reflexivity|]. split; eexists; vm_compute; reflexivity.
Qed.

(** The effect on the caller's dictionaries: only two entries are written, only in dictionaries
    that were given, also when there is sharing. *)
Theorem C56_effect : forall h (data : list (str * list nat)) h', NoDup (map fst data) -> rcollate_after h data = Ok h' ->
  (forall r, ~ In r (flat_map snd data) -> h' r = h r) /\
  (forall r k, k <> lit "_sigil" -> k <> lit "_token_array_position" -> dget str_eqb k (h' r) = dget str_eqb k (h r)).
Proof.
  intros h data h' ND H. destruct (rafter_heap _ _ _ ND H) as [ws [E ->]]. destruct (rwitnesses_shape _ _ _ E) as [_ B]. split.
  - intros r Hr. apply rheap_other. rewrite B. assumption.
  - intros r k N1 N2. apply rheap_keys; assumption.
Qed.
Print Assumptions C56_effect.

(** What the entries say after the call: the siglum of the witness and the place of the token. *)
Theorem C56_entries : forall h (data : list (str * list nat)) h', NoDup (map fst data) -> no_sharing data -> rcollate_after h data = Ok h' ->
  forall before sg refs1 r refs2 after, data = before ++ (sg, refs1 ++ r :: refs2) :: after ->
    dget str_eqb (lit "_sigil") (h' r) = Some (JStr sg) /\
    dget str_eqb (lit "_token_array_position") (h' r) =
      Some (JNum (Z.of_nat (length (flat_map snd before) + length before + length refs1))).
Proof. exact rafter_entries. Qed.
Print Assumptions C56_entries.

(** Calling collate again with the same objects gives the same answer, errors included. *)
Theorem C56_again : forall cc topo ratio h (data : list (str * list nat)) o h',
  topo_ok topo -> NoDup (map fst data) -> ~ In ([] : str) (map fst data) -> no_sharing data ->
  rcollate_after h data = Ok h' -> rcollate cc topo ratio h' data o = rcollate cc topo ratio h data o.
Proof. exact rcollate_again. Qed.
Print Assumptions C56_again.

Definition heap_of (l : list jdict) : heap := fun r => nth r l [].
Definition sample_heap : heap := heap_of
  [[(lit "t", JStr (lit "the "))]; [(lit "t", JStr (lit "cat")); (lit "n", JStr (lit "cat"))]; [(lit "t", JStr (lit "a "))]; [(lit "t", JStr (lit "cat"))];
   [(lit "t", JStr (lit "unused"))]].
Definition sample_refs : list (str * list nat) := [(lit "A", [0; 1]); (lit "B", [2; 3])].
Example C56_example :
  NoDup (map fst sample_refs) /\ ~ In ([] : str) (map fst sample_refs) /\ no_sharing sample_refs /\
  (exists h', rcollate_after sample_heap sample_refs = Ok h' /\ h' 0 <> sample_heap 0 /\
     dget str_eqb (lit "_token_array_position") (h' 3) = Some (JNum 4)) /\
  (exists x, rcollate ascii_cc kahn sample_ratio sample_heap sample_refs default_options = Ok x).
Proof.
  split; [repeat constructor; cbn; intuition discriminate|]. split; [cbn; intuition discriminate|].
  split; [unfold no_sharing; repeat constructor; cbn; intuition discriminate|]. split.
  - eexists. split; [vm_compute; reflexivity|]. split; [vm_compute; discriminate|vm_compute; reflexivity].
  - eexists. vm_compute. reflexivity.
Qed.
