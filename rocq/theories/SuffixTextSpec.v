(** Specification vocabulary: word texts and features of suffix arrays (C76, C77, C78). *)
From Verif Require Import Py TokenModel SuffixModel SuffixSpec SuffixTextModel.
From Coq Require Import ZArith.
Open Scope list_scope.
Open Scope nat_scope.

(** The tokens of a text of words: every newline is a token; every other token is a longest stretch of
    characters that are neither spaces nor newlines. *)
Definition a_word (w : str) : Prop := w <> [] /\ ~ In 32%N w /\ ~ In 10%N w.
Definition word_ends (s : str) : Prop := s = [] \/ (exists s', s = 32%N :: s') \/ exists s', s = 10%N :: s'.
Inductive words_of : str -> list str -> Prop :=
| wo_end : words_of [] []
| wo_space : forall s l, words_of s l -> words_of (32%N :: s) l
| wo_newline : forall s l, words_of s l -> words_of (10%N :: s) ([10%N] :: l)
| wo_word : forall w s l, a_word w -> word_ends s -> words_of s l -> words_of (w ++ s) (w :: l).

(** Tokens written as a text: one space between two words, nothing beside a newline. *)
Definition newline_token (t : str) : bool := match t with [c] => N.eqb c 10 | _ => false end.
Fixpoint written (l : list str) : str :=
  match l with
  | [] => []
  | x :: l' => match l' with
               | [] => x
               | y :: _ => x ++ (if newline_token x || newline_token y then [] else [32%N]) ++ written l'
               end
  end.

(** A text without needless spaces: none at its ends, none beside another space or a newline. *)
Definition neat (s : str) : Prop :=
  (forall b, s <> 32%N :: b) /\ (forall a, s <> a ++ [32%N]) /\
  (forall a b, s <> a ++ [32%N; 32%N] ++ b) /\ (forall a b, s <> a ++ [32%N; 10%N] ++ b) /\ (forall a b, s <> a ++ [10%N; 32%N] ++ b).

(** [v] is the value that a feature with the values [vs] gives to the suffix at position [p]. *)
Definition attached (ta : textarray) (vs : list jval) (p : nat) (v : jval) : Prop :=
  exists r, nth_error (sa_SA (ta_sa ta)) r = Some p /\ nth_error vs r = Some v.
Arguments attached : simpl never.

(** A suffix array of the tokens [toks] as it can be made by the calls of the API: created, then any
    features added.  The feature LCP, which the search itself uses, is not redefined. *)
Inductive built (u : unit_type) (toks : list str) : textarray -> Prop :=
| built_new : forall t ta, unit_tokens u t = Ok toks -> create_array t u false = Ok ta -> built u toks ta
| built_sa : forall ta cb d name ta', built u toks ta -> name <> lit "LCP" -> add_feature_sa ta cb d name = Ok ta' -> built u toks ta'
| built_fn : forall ta cb d name args ta', built u toks ta -> name <> lit "LCP" -> add_feature ta cb d name args = Ok ta' -> built u toks ta'.

(** A feature with one value for every suffix. *)
Definition has_feature (ta : textarray) (name : str) (vs : list jval) : Prop :=
  feature_values ta name = Ok vs /\ length vs = length (sa_SA (ta_sa ta)).
