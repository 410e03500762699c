(** Specification of the errors of Collation.create_from_dict (C46). *)
From Verif Require Import Py TokenModel TokenSpec.
Open Scope list_scope.

Definition is_text (v : jval) : Prop := exists s, v = JStr s.
(** Why an entry of the "witnesses" list cannot be read. *)
Inductive entry_fails (d : jdict) : exn -> Prop :=
| fails_id : ~ In (lit "id") (map fst d) -> entry_fails d KeyError
| fails_content : forall sg v, In (lit "id", JStr sg) d -> In (lit "content", v) d -> ~ is_text v -> entry_fails d TypeError
| fails_token : forall sg ds t, In (lit "id", JStr sg) d -> ~ In (lit "content") (map fst d) -> In (lit "tokens", JArr (map JObj ds)) d ->
    In t ds -> ~ In (lit "n") (map fst t) -> ~ In (lit "t") (map fst t) -> entry_fails d TokenError
| fails_reading : forall sg ds t v, In (lit "id", JStr sg) d -> ~ In (lit "content") (map fst d) -> In (lit "tokens", JArr (map JObj ds)) d ->
    (forall t', In t' ds -> In (lit "n") (map fst t') \/ In (lit "t") (map fst t')) ->
    In t ds -> In (lit "n", v) t \/ (~ In (lit "n") (map fst t) /\ In (lit "t", v) t) -> ~ is_text v -> entry_fails d TypeError.
