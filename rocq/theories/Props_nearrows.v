(** Property C21 with any number of witnesses: what the rows show. *)
From Verif Require Import Py TokenModel SuffixModel IndexModel GraphModel TableModel NearModel ExportModel CollateModel Lib GraphSpec RankProof TableSpec CollateSpec
  ResultProof NearRowSpec NearRowProof TopoProof Samples Props_limits.
From Coq Require Import QArith.
Open Scope list_scope.
Open Scope nat_scope.

(** ** C21: with near matching every token gets a column of the table; an empty cell means that no token of the witness has the
    column, and a cell that is not empty shows one token, one of those that have it. *)
Theorem C21_rows_partial : forall cc topo ratio c o t, topo_ok topo -> good_sigla c -> o_near o = true -> collate cc topo ratio c o = Ok (OTable t) ->
  Forall2 (fun w ro => r_header ro = w_sigil w /\ exists tks cols, shown_row (w_sigil w) (w_toks w) (r_cells ro) tks cols) c (t_rows t).
Proof. intros cc topo ratio c o t TO. apply near_rows. exact TO. Qed.
Print Assumptions C21_rows_partial.

(** So nothing is shown that is not in the witness, and nothing twice; tokens are lost exactly if two of them got the same column. *)
Theorem C21_nothing_twice_partial : forall cc topo ratio c o t, topo_ok topo -> good_sigla c -> o_near o = true -> collate cc topo ratio c o = Ok (OTable t) ->
  Forall2 (fun w ro => exists tks cols, shown_row (w_sigil w) (w_toks w) (r_cells ro) tks cols /\
    NoDup (map tk_pos (row_tokens ro)) /\ incl (row_tokens ro) tks /\ (length (row_tokens ro) = length (w_toks w) <-> NoDup cols)) c (t_rows t).
Proof.
  intros cc topo ratio c o t TO G Hn H. pose proof (near_rows cc topo ratio TO c o t G Hn H) as F. clear - F. induction F as [|w ro c rows [_ [tks [cols S]]] F IH]; [constructor|]. constructor; [|exact IH].
  exists tks, cols. split; [exact S|]. apply (shown_summary _ _ _ _ _ S).
Qed.
Print Assumptions C21_nothing_twice_partial.

(** The loss of C21_token_lost_refuted: the second witness has three tokens in two columns. *)
Example C21_rows_example : good_sigla near_loss /\ exists t, collate ascii_cc kahn sample_ratio near_loss (near_options "table") = Ok (OTable t) /\
  nth_error (map (fun w => map t0_str (w_toks w)) near_loss) 1 = Some [lit "cat"; lit "cats"; lit "z"] /\
  nth_error (readings t) 1 = Some [[]; []; [lit "cat"]; []; [lit "z"]].
Proof.
  split; [split; [repeat constructor; cbn; intuition discriminate|cbn; intuition discriminate]|]. eexists. split; [vm_compute; reflexivity|]. split; vm_compute; reflexivity.
Qed.
