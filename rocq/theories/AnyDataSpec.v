(** Specification vocabulary for data of any JSON type (C98). *)
From Verif Require Import Py TokenModel TokenSpec CutSpec DictErrSpec AnyDataModel.
Open Scope list_scope.

(** ** What can be read *)
(** A token is made of null (no text, no data) or of a dictionary, as in C46. *)
Inductive made_token : jval -> tok_any -> Prop :=
| made_null : made_token JNull {| ta_str := []; ta_data := None |}
| made_dict : forall d s, given_reading d s -> made_token (JObj d) {| ta_str := s; ta_data := Some d |}.
(** Lists of tokens; the empty text and the empty object count as empty lists. *)
Inductive token_list : jval -> list jval -> Prop :=
| list_list : forall l, token_list (JArr l) l
| list_text : token_list (JStr []) []
| list_object : token_list (JObj []) [].
(** A witness is made of an object with an id, of any type. *)
Inductive made_witness (cc : cclass) : jval -> wit_any -> Prop :=
| made_content : forall d i s ts, In (lit "id", i) d -> In (lit "content", JStr s) d -> tokens_of cc s ts ->
    made_witness cc (JObj d) {| wa_id := i; wa_toks := map embed_tok ts |}
| made_tokens : forall d i tv l ts, In (lit "id", i) d -> ~ In (lit "content") (map fst d) -> In (lit "tokens", tv) d -> token_list tv l -> Forall2 made_token l ts ->
    made_witness cc (JObj d) {| wa_id := i; wa_toks := ts |}
| made_nothing : forall d i, In (lit "id", i) d -> ~ In (lit "content") (map fst d) -> ~ In (lit "tokens") (map fst d) ->
    made_witness cc (JObj d) {| wa_id := i; wa_toks := [] |}.
(** ** What cannot be read, and the error *)
(** [names_key v]: one finds "n" or "t" in it. *)
Inductive names_key : jval -> Prop :=
| names_char : forall s, In 110%N s \/ In 116%N s -> names_key (JStr s)
| names_elem : forall l, In (JStr (lit "n")) l \/ In (JStr (lit "t")) l -> names_key (JArr l).
Definition text_or_list (v : jval) : Prop := (exists s, v = JStr s) \/ (exists l, v = JArr l).
Inductive token_error : jval -> exn -> Prop :=
| err_misled : forall v, names_key v -> token_error v TypeError
| err_nothing : forall v, text_or_list v -> ~ names_key v -> token_error v TokenError
| err_number : forall z, token_error (JNum z) TypeError
| err_bool : forall b, token_error (JBool b) TypeError
| err_neither : forall d, ~ In (lit "n") (map fst d) -> ~ In (lit "t") (map fst d) -> token_error (JObj d) TokenError.
(** A token object can be made: the value to be compared may still be of any type. *)
Inductive reading_any : jval -> jval -> Prop :=
| reading_null : reading_any JNull (JStr [])
| reading_n : forall d v, In (lit "n", v) d -> reading_any (JObj d) v
| reading_t : forall d v, ~ In (lit "n") (map fst d) -> In (lit "t", v) d -> reading_any (JObj d) v.
(** What one goes through: elements, characters, keys. *)
Inductive gone_through : jval -> list jval -> Prop :=
| through_list : forall l, gone_through (JArr l) l
| through_text : forall s, gone_through (JStr s) (map (fun c => JStr [c]) s)
| through_object : forall d, gone_through (JObj d) (map (fun m => JStr (fst m)) d).

Inductive entry_error : jval -> exn -> Prop :=
| err_object : forall v, (forall d, v <> JObj d) -> entry_error v TypeError
| err_id : forall d, ~ In (lit "id") (map fst d) -> entry_error (JObj d) KeyError
| err_content : forall d v, In (lit "id") (map fst d) -> In (lit "content", v) d -> ~ is_text v -> entry_error (JObj d) TypeError
| err_no_list : forall d v, In (lit "id") (map fst d) -> ~ In (lit "content") (map fst d) -> In (lit "tokens", v) d -> (forall l, ~ gone_through v l) -> entry_error (JObj d) TypeError
| err_token : forall d v a x b e, In (lit "id") (map fst d) -> ~ In (lit "content") (map fst d) -> In (lit "tokens", v) d -> gone_through v (a ++ x :: b) ->
    (forall y, In y a -> exists r, reading_any y r) -> token_error x e -> entry_error (JObj d) e
| err_reading : forall d v l y r, In (lit "id") (map fst d) -> ~ In (lit "content") (map fst d) -> In (lit "tokens", v) d -> gone_through v l ->
    (forall y, In y l -> exists r, reading_any y r) -> In y l -> reading_any y r -> ~ is_text r -> entry_error (JObj d) TypeError.

(** ** Usual data: witnesses and tokens are lists of objects, ids are texts. *)
Definition usual_entry (v : jval) : Prop :=
  exists d, v = JObj d /\ (forall i, dget str_eqb (lit "id") d = Some i -> is_text i) /\
    (forall tv, dget str_eqb (lit "tokens") d = Some tv -> exists ds, tv = JArr (map JObj ds)).
Definition usual_data (data : jdict) : Prop :=
  forall v, dget str_eqb (lit "witnesses") data = Some v -> exists l, v = JArr l /\ Forall usual_entry l.
(** Every object has every key once. *)
Definition keys_once_any (v : jval) : Prop := forall d, v = JObj d -> keys_once d /\
  forall l' d', In (lit "tokens", JArr l') d -> In (JObj d') l' -> keys_once d'.

(** ** What collate can begin with *)
(** A witness that can be collated: it has tokens, all of them with data, and its id can be a key. *)
Definition usable (w : wit_any) : Prop :=
  wa_toks w <> [] /\ (forall t, In t (wa_toks w) -> ta_data t <> None) /\ (forall l, wa_id w <> JArr l) /\ (forall d, wa_id w <> JObj d).
