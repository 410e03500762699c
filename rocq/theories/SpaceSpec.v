(** Specification vocabulary: the white space between the words of a text (C63). *)
From Verif Require Import Py TokenModel TokenSpec.
Open Scope list_scope.

Definition is_word (cc : cclass) (s : str) : Prop := s <> [] /\ all_chars (isw cc) s.
(** Punctuation: no word characters, and no white space at either end. *)
Definition is_punctuation (cc : cclass) (s : str) : Prop :=
  s <> [] /\ all_chars (fun c => negb (isw cc c)) s /\ next_not (iss cc) s /\ next_not (iss cc) (rev s).

(** The text consists of the given words and punctuation with white space after each of them; there
    may be none next to punctuation, but there is some between two words.  Two pieces of
    punctuation have a word between them (else they are one piece). *)
Inductive spaced (cc : cclass) : list str -> str -> Prop :=
| spaced_none : spaced cc [] []
| spaced_last : forall p sp, is_word cc p \/ is_punctuation cc p -> all_chars (iss cc) sp -> spaced cc [p] (p ++ sp)
| spaced_word : forall p sp q ps text, is_word cc p -> all_chars (iss cc) sp -> (is_word cc q -> sp <> []) ->
    spaced cc (q :: ps) text -> spaced cc (p :: q :: ps) (p ++ sp ++ text)
| spaced_punctuation : forall p sp q ps text, is_punctuation cc p -> all_chars (iss cc) sp -> is_word cc q ->
    spaced cc (q :: ps) text -> spaced cc (p :: q :: ps) (p ++ sp ++ text).
