(** Specification vocabulary for the tokenizer properties (C01, C02). *)
From Verif Require Import Py TokenModel.

(** The 't' (as written) and 'n' (normalised) values of a token, as a user reads them
    from the token's data. *)
Definition data_str (k : String.string) (d : jdict) : option str :=
  match dget str_eqb (lit k) d with Some (JStr s) => Some s | _ => None end.
Arguments data_str k%string_scope d.

Definition all_chars (p : N -> bool) (s : str) : Prop := Forall (fun c => p c = true) s.
(** The next character, if any, does not satisfy [p]. *)
Definition next_not (p : N -> bool) (s : str) : Prop :=
  match s with [] => True | c :: _ => p c = false end.
Definition next_is (p : N -> bool) (s : str) : Prop :=
  match s with [] => True | c :: _ => p c = true end.

(** [t] is a legal token when the text that follows it is [post]. *)
Inductive legal_token (cc : cclass) (t post : str) : Prop :=
| legal_word : forall w sp,
    t = w ++ sp -> w <> [] -> all_chars (isw cc) w -> all_chars (iss cc) sp ->
    next_not (isw cc) (sp ++ post) -> next_not (iss cc) post -> legal_token cc t post
| legal_other :
    t <> [] -> all_chars (fun c => negb (isw cc c)) t -> next_is (isw cc) post ->
    legal_token cc t post.

(** [n] is [t] without its trailing white space. *)
Definition without_trailing_space (cc : cclass) (t n : str) : Prop :=
  exists sp, t = n ++ sp /\ all_chars (iss cc) sp /\ next_not (iss cc) (rev n).

(** ** Witnesses given as data (C46) *)

(** The reading of a token given as data: its 'n' value, or its 't' value if it has no 'n'. *)
Inductive given_reading (d : jdict) (s : str) : Prop :=
| given_n : In (lit "n", JStr s) d -> given_reading d s
| given_t : ~ In (lit "n") (map fst d) -> In (lit "t", JStr s) d -> given_reading d s.

(** The witness read from an entry of the "witnesses" list: a plain text is tokenised as in
    C01 and C02, a list of tokens is kept as it is (the data of every token unchanged), and
    without either the witness has no tokens. *)
Inductive entry_witness (cc : cclass) (v : jval) (w : witness) : Prop :=
| entry_content : forall d s c, v = JObj d -> In (lit "id", JStr (w_sigil w)) d -> In (lit "content", JStr s) d ->
    add_plain_witness cc c (w_sigil w) s = Ok (c ++ [w]) -> entry_witness cc v w
| entry_tokens : forall d l, v = JObj d -> In (lit "id", JStr (w_sigil w)) d ->
    ~ In (lit "content") (map fst d) -> In (lit "tokens", JArr l) d ->
    Forall2 (fun e t => e = JObj (t0_data t) /\ given_reading (t0_data t) (t0_str t)) l (w_toks w) -> entry_witness cc v w
| entry_nothing : forall d, v = JObj d -> In (lit "id", JStr (w_sigil w)) d ->
    ~ In (lit "content") (map fst d) -> ~ In (lit "tokens") (map fst d) -> w_toks w = [] -> entry_witness cc v w.

(** [first_of limit l l']: [l'] is what a limit leaves of [l]: the first [k] entries, or
    all but the last [k] for the limit [-k]. *)
Inductive first_of {A} : option Z -> list A -> list A -> Prop :=
| first_all : forall l, first_of None l l
| first_few : forall k l1 l2, length l1 = k -> first_of (Some (Z.of_nat k)) (l1 ++ l2) l1
| first_short : forall k l, length l <= k -> first_of (Some (Z.of_nat k)) l l
| first_drop : forall k l1 l2, k <> 0 -> length l2 = k -> first_of (Some (- Z.of_nat k)%Z) (l1 ++ l2) l1
| first_none : forall k l, k <> 0 -> length l <= k -> first_of (Some (- Z.of_nat k)%Z) l [].

(** JSON objects and Python dictionaries have every key once, at every depth that matters:
    the entries and the tokens in them. *)
Definition keys_once (d : jdict) : Prop := NoDup (map fst d).
Definition entries_once (l : list jval) : Prop := forall d, In (JObj d) l -> keys_once d /\
  forall l' d', In (lit "tokens", JArr l') d -> In (JObj d') l' -> keys_once d'.
