(** Model of the table of heuristic values: collatex/experimental_astar_aligner.py:81-94. *)
From Verif Require Import Py AStarModel.
Open Scope list_scope.

(** experimental_astar_aligner.py:81-94  _create_heuristic_table: one row for every number of tokens of the
    witness, one entry for every number of tokens of the superbase.  As in AStarModel the values are counted
    in halves.  The unused table of nodes of lines 87-88 is left out: the heuristic looks at x and y only. *)
Definition heuristic_table {T : Type} (wa wb : list T) : list (list Z) :=
  map (fun y => map (fun x => heuristic T wb (y, x)) (seq 0 (length wa + 1))) (seq 0 (length wb + 1)).
