(** Specification vocabulary for texts in parts (C97). *)
From Verif Require Import Py TokenModel TokenSpec.
Open Scope list_scope.

(** The tokens of a text given as a plain witness. *)
Definition tokens_of (cc : cclass) (text : str) (ts : list tok0) : Prop :=
  exists w, add_plain_witness cc [] (lit "A") text = Ok [w] /\ w_toks w = ts.

(** The text ends with a word, perhaps followed by white space. *)
Definition ends_in_word (cc : cclass) (a : str) : Prop :=
  exists p w sp, a = p ++ w :: sp /\ isw cc w = true /\ all_chars (iss cc) sp.
(** The text ends with a word character. *)
Definition ends_in_letter (cc : cclass) (a : str) : Prop := exists p w, a = p ++ [w] /\ isw cc w = true.

(** No token goes on from [a] to the character [y] after it: a word character goes on a word, white space goes on a word and
    its white space, and both white space and punctuation go on punctuation. *)
Definition token_ends (cc : cclass) (a : str) (y : N) : Prop :=
  (isw cc y = true -> ~ ends_in_letter cc a) /\ (isw cc y = false -> ends_in_word cc a /\ iss cc y = false).

(** A division of a text into legal tokens. *)
Definition all_legal (cc : cclass) (ts : list str) : Prop :=
  forall i t, nth_error ts i = Some t -> legal_token cc t (concat (skipn (S i) ts)).
