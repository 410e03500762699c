(** Sessions: collating the same Collation object repeatedly (C33). *)
From Verif Require Import Py TokenModel SuffixModel IndexModel GraphModel AlignModel TableModel NearModel ExportModel
  CollateModel Samples HistorySpec HistoryProof.
From Coq Require Import QArith.
Open Scope list_scope.
Open Scope nat_scope.

(** C33: in every session, every collate call answers as on a freshly built object with the
    witnesses added so far; answers include raised errors. *)
Theorem C33_repeatable : forall cc topo ratio h, answers cc topo ratio collation_empty h = fresh_answers cc topo ratio [] h.
Proof. intros cc topo ratio h. apply session_fresh. constructor. Qed.
Print Assumptions C33_repeatable.

(** What a collate call changes in the caller's object: two keys in the token data. *)
Theorem C33_effect : forall c o, Forall2 same_but_marks c (collate_effect c o).
Proof. exact effect_small. Qed.
Print Assumptions C33_effect.

(** A session with collate calls before, between and after additions; the object does change. *)
Definition sample_session : list call :=
  [Collate default_options; AddPlain (lit "A") (lit "a black cat"); Collate default_options;
   AddWitness [(lit "id", JStr (lit "B")); (lit "tokens", JArr [JObj [(lit "t", JStr (lit "a "))]; JObj [(lit "t", JStr (lit "cat"))]])];
   Collate default_options; AddWitness []; Collate (plain_options "table")].
Example C33_example :
  map (fun r => match r with Ok (OTable t) => length (t_rows t) | _ => 9 end) (answers ascii_cc kahn sample_ratio collation_empty sample_session) = [9; 1; 2; 2] /\
  after_session ascii_cc sample_session <> after_session ascii_cc (adds sample_session).
Proof. split; [vm_compute; reflexivity|]. vm_compute. discriminate. Qed.
