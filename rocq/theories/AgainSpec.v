(** Specification vocabulary: a JSON result used as input again (C75). *)
From Verif Require Import Py TokenModel CollateModel ExportSpec TokenSpec OrderSpec.
Open Scope list_scope.

(** The input dictionary made from a JSON result: for every witness its siglum and, as tokens, what
    its row of the table holds, one cell after the other. *)
Definition row_witness (sg : str) (row : list jval) : jval := JObj [(lit "id", JStr sg); (lit "tokens", JArr (json_tokens row))].
Definition fed_back (v : jval) (d : jdict) : Prop :=
  exists members rows sigla, v = JObj members /\
    In (lit "table", JArr (map JArr rows)) members /\ In (lit "witnesses", JArr (map JStr sigla)) members /\
    d = [(lit "witnesses", JArr (map (fun '(sg, row) => row_witness sg row) (combine sigla rows)))].

(** Tokens as every way of adding a witness makes them: the token string is the n entry, or else
    the t entry, and no key stands twice. *)
Definition made_tokens (c : collation) : Prop :=
  forall w t, In w c -> In t (w_toks w) -> given_reading (t0_data t) (t0_str t) /\ proper (JObj (t0_data t)).
