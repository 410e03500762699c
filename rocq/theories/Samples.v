(** Small collations used in examples and counterexamples. *)
From Verif Require Import Py TokenModel IndexModel GraphModel TableModel CollateModel.
From Coq Require Import String QArith.

(** A witness as collatex builds it from words: 't' and 'n' are the word. *)
Definition word (s : str) : tok0 :=
  {| t0_str := s; t0_data := [(lit "t", JStr s); (lit "n", JStr s)] |}.
Definition words (sg : string) (l : list string) : witness :=
  {| w_sigil := lit sg; w_toks := map (fun s => word (lit s)) l |}.

Open Scope nat_scope.
Open Scope list_scope.
Open Scope string_scope.
Definition two_witnesses : collation :=
  [words "A" ["the"; "black"; "cat"; "and"; "the"; "black"; "dog"];
   words "B" ["the"; "black"; "dog"; "and"; "the"; "cat"]].
Definition three_witnesses : collation :=
  [words "A" ["the"; "quick"; "brown"; "fox"; "jumps"];
   words "B" ["the"; "brown"; "fox"; "jumps"; "twice"];
   words "C" ["a"; "quick"; "fox"; "jumps"]].
(** Text with an LCP group 1, 2, 1. *)
Definition repetitive : collation :=
  [words "A" ["a"; "b"; "a"; "c"; "d"; "a"; "c"; "e"; "a"; "f"]].

(** Collations for counterexamples. *)
Definition equal_readings : collation :=
  [words "A" ["a"; "p"; "q"; "r"]; words "B" ["s"; "t"; "u"; "a"]; words "C" ["k"; "l"; "m"; "a"; "p"; "q"; "r"]].
Definition near_loss : collation :=
  [words "A" ["xx"; "yy"; "cats"; "dog"; "z"]; words "B" ["cat"; "cats"; "z"]; words "C" ["cat"; "dog"; "z"]].
Definition near_swap : collation :=
  [words "A" ["xx"; "yy"; "pot"; "cats"; "z"]; words "B" ["cat"; "pot"; "z"]; words "C" ["cat"; "z"]].
Definition repeated_siglum : collation :=
  [words "A" ["a"; "b"]; words "B" ["x"; "y"]; words "B" ["a"; "b"]].

Definition marker_word : collation := [words "A" ["a"]; words "B" ["$0"]].
Definition empty_siglum : collation := [words "A" ["a"]; words "" ["x"]].

(** Tokens with a property 'k', and a filter that compares it. *)
Definition tagged (s k : string) : tok0 :=
  {| t0_str := lit s; t0_data := [(lit "t", JStr (lit s)); (lit "k", JStr (lit k))] |}.
Definition same_tag (a b : jdict) : bool :=
  match dget str_eqb (lit "k") a, dget str_eqb (lit "k") b with
  | Some (JStr x), Some (JStr y) => str_eqb x y
  | _, _ => false
  end.
Definition shifted_tags : collation :=
  [{| w_sigil := lit "A"; w_toks := [tagged "a" "1"; tagged "b" "2"] |};
   {| w_sigil := lit "B"; w_toks := [tagged "a" "3"; tagged "b" "1"] |}].

(** The similarity of python-Levenshtein's ratio: twice the length of the longest common
    subsequence over the sum of the lengths. *)
Fixpoint lcs_row (a : N) (b : str) (prev : list nat) (diag left : nat) : list nat :=
  match b, prev with
  | y :: b', p :: prev' =>
    let v := if N.eqb a y then S diag else Nat.max p left in v :: lcs_row a b' prev' p v
  | _, _ => []
  end.
Definition lcs_length (a b : str) : nat :=
  List.last (fold_left (fun prev x => lcs_row x b prev 0 0) a (repeat 0 (List.length b))) 0.
Definition sample_ratio (a b : str) : QArith_base.Q :=
  QArith_base.Qmake (Z.of_nat (2 * lcs_length a b)) (Pos.of_nat (List.length a + List.length b)).

(** Options: no segmentation, segmentation, near matching. *)
Definition plain_options (out : string) : options :=
  {| o_output := lit out; o_vertical := false; o_segmentation := false; o_near := false;
     o_astar := false; o_transp := false; o_filter := None; o_indent := false |}.
Definition seg_options (out : string) : options :=
  {| o_output := lit out; o_vertical := false; o_segmentation := true; o_near := false;
     o_astar := false; o_transp := false; o_filter := None; o_indent := false |}.
Definition near_options (out : string) : options :=
  {| o_output := lit out; o_vertical := false; o_segmentation := false; o_near := true;
     o_astar := false; o_transp := false; o_filter := None; o_indent := false |}.

Definition filter_options (out : string) : options :=
  {| o_output := lit out; o_vertical := false; o_segmentation := false; o_near := false;
     o_astar := false; o_transp := false; o_filter := Some same_tag; o_indent := false |}.

(** The readings of a table, row by row. *)
Definition readings (t : table) : list (list (list str)) :=
  map (fun r => map (fun c => match c with Some ts => map tk_str ts | None => [] end) (r_cells r)) (t_rows t).
Definition table_of (x : res output) : res (list (list (list str))) :=
  match x with Ok (OTable t) => Ok (readings t) | Ok _ => Raise TypeError | Raise e => Raise e end.

(** A text with a carriage return, and plain text whose words are separated by a tab. *)
Definition cr_text : collation :=
  [{| w_sigil := lit "A"; w_toks := [word (97%N :: [13%N]); word (lit "b")] |}].
Definition tab_text : list (str * str) := [(lit "A", 97%N :: 9%N :: lit "b"); (lit "B", 97%N :: 9%N :: lit "b")].
(** Texts with characters that have a meaning in csv or XML. *)
Definition markup_text : collation :=
  [{| w_sigil := lit "A<"; w_toks := [word (lit "x,y "); word (34%N :: lit "&lt;" ++ [10%N]); word []] |};
   {| w_sigil := lit "B"; w_toks := [word (lit "x,y "); word (lit "<b>")] |}].

(** Repeated tokens that attract the alignment. *)
Definition stacked_words : collation := [words "A" ["a"; "x"; "y"]; words "B" ["x"; "y"; "a"; "a"; "a"; "a"]].
