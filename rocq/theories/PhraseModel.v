(** Model of PhraseMatchDetector and TranspositionDetector (collatex/transposition_handling.py:75-204). *)
From Verif Require Import Py TokenModel IndexModel GraphModel QueryModel.
Open Scope list_scope.
Open Scope nat_scope.

(** transposition_handling.py:84-85: the two list objects of one call of detect.  They are
    created once, emptied in place (lines 79-80) and filled again. *)
Record buffers := { base_phrase : list vid; witness_phrase : list token }.

(** A zip object made at lines 78 and 105.  In Python 3 it is an iterator that holds the two
    list objects, not their contents: every zip of one call holds the same two lists, so there
    is nothing to record about it but that it exists. *)
Inductive zip_object := ZipOfBuffers.

(** list(z): what the zip object gives when it is read, from the present contents of the lists. transposition_handling.py:78, 105. *)
Definition zip_list (b : buffers) (z : zip_object) : list (vid * token) :=
  match z with ZipOfBuffers => combine (base_phrase b) (witness_phrase b) end.

(** transposition_handling.py:76-80  _add_new_phrase_match_and_clear_buffer *)
Definition add_and_clear (matches : list zip_object) (b : buffers) : list zip_object * buffers :=
  match base_phrase b with
  | [] => (matches, b)
  | _ => (matches ++ [ZipOfBuffers], {| base_phrase := []; witness_phrase := [] |})
  end.

(** transposition_handling.py:97-98: directed_edge and is_near. *)
Definition is_near (g : graph) (previous v : vid) : bool :=
  edge_between g previous v && (length (out_edges g previous) =? 1) && (length (in_edges g v) =? 1).

(** transposition_handling.py:88-103: the loop of detect.  [linked] maps tokens (their
    positions) to vertices. *)
Fixpoint detect_loop (g : graph) (linked : list (nat * vid)) (tokens : list token)
    (matches : list zip_object) (b : buffers) (previous : vid) : list zip_object * buffers :=
  match tokens with
  | [] => (matches, b)
  | t :: rest =>
    match dget Nat.eqb (tk_pos t) linked with
    | None => let '(matches', b') := add_and_clear matches b in detect_loop g linked rest matches' b' previous
    | Some v =>
      let '(matches', b') := if is_near g previous v then (matches, b) else add_and_clear matches b in
      detect_loop g linked rest matches' {| base_phrase := base_phrase b' ++ [v]; witness_phrase := witness_phrase b' ++ [t] |} v
    end
  end.

(** transposition_handling.py:82-106  PhraseMatchDetector.detect; the second component is the
    state of the two lists when detect returns, which nothing changes afterwards. *)
Definition detect_phrases (g : graph) (linked : list (nat * vid)) (tokens : list token) : list zip_object * buffers :=
  let '(matches, b) := detect_loop g linked tokens [] {| base_phrase := []; witness_phrase := [] |} v_start in
  (match base_phrase b with [] => matches | _ => matches ++ [ZipOfBuffers] end, b).

(** What the caller gets by reading the phrase matches returned. transposition_handling.py:82-106. *)
Definition phrase_matches (g : graph) (linked : list (nat * vid)) (tokens : list token) : list (list (vid * token)) :=
  let '(matches, b) := detect_phrases g linked tokens in map (zip_list b) matches.

(** transposition_handling.py:112-131  TranspositionDetector.detect.  sorted() of Python 3 has no
    argument cmp: line 131 is a TypeError, and lines 133-204 are never reached. *)
Definition detect_transpositions {A} (topo : graph -> res (list vid)) (phrases : list A) (g : graph) : res (list A) :=
  match phrases with
  | [] => Ok []
  | _ => _ <- ranking_of topo g ;; Raise TypeError
  end.
