(** Collations of two and three witnesses that are always unambiguous (C107). *)
From Verif Require Import Py TokenModel SuffixModel IndexModel GraphModel AlignModel TableModel NearModel ExportModel
  CollateModel Lib GraphSpec TableSpec CollateSpec Samples TopoProof WalkSpec PairSpec ChosenSpec PairProof ProgSpec ProgProof ProgTwo.
From Coq Require Import QArith.
Open Scope list_scope.
Open Scope nat_scope.

(** The table [t] of the collation [c] follows the alignment [A]: the conclusion of C107_table. *)
Definition table_follows (A : alignment) (c : collation) (t : table) : Prop :=
  length (threads A) = length c /\ length (t_rows t) = length c /\
  (forall th i j n n', In th (threads A) -> i < j -> nth_error th i = Some n -> nth_error th j = Some n' -> place_in A n < place_in A n') /\
  (forall k w th r, nth_error c k = Some w -> nth_error (threads A) k = Some th -> nth_error (t_rows t) k = Some r ->
    r_header r = w_sigil w /\ Forall2 (shows w) (map (at_column A th) (seq 1 (breadth A))) (r_cells r)) /\
  Forall2 (fun x col => c_variant col = false <-> exists n, place_in A n = x /\ forall th, In th (threads A) -> In n th) (seq 1 (breadth A)) (t_columns t).

(** For up to two witnesses nothing has to be assumed. *)
Theorem C107_two : forall cc topo ratio c o t, topo_ok topo -> good_sigla c -> length c <= 2 ->
  o_segmentation o = false -> o_near o = false -> o_filter o = None -> collate cc topo ratio c o = Ok (OTable t) ->
  table_follows (progressive (map readings c)) c t.
Proof.
  intros cc topo ratio c o t TO G L S N F H. refine (prog_table cc topo ratio c o t TO G S N F H _).
  intros k Hk. assert (k = 0) by lia. subst k. destruct c as [|w c]; [cbn in Hk; lia|]. cbn [map firstn]. apply first_clear.
Qed.
Print Assumptions C107_two.

(** For three witnesses it is enough that the second has no word twice in a row. *)
Theorem C107_three : forall cc topo ratio w1 w2 w3 o t, topo_ok topo -> good_sigla [w1; w2; w3] -> no_doublets (readings w2) ->
  o_segmentation o = false -> o_near o = false -> o_filter o = None -> collate cc topo ratio [w1; w2; w3] o = Ok (OTable t) ->
  table_follows (progressive [readings w1; readings w2; readings w3]) [w1; w2; w3] t.
Proof.
  intros cc topo ratio w1 w2 w3 o t TO G D S N F H. refine (prog_table cc topo ratio [w1; w2; w3] o t TO G S N F H _).
  intros k Hk. cbn [length] in Hk. assert (E : k = 0 \/ k = 1) by lia. destruct E as [-> | ->]; cbn [map firstn].
  - apply first_clear.
  - exact (second_clear cc topo ratio TO w1 w2 [w3] o (OTable t) G F H D).
Qed.
Print Assumptions C107_three.

(** For more witnesses the first two stages need no condition if the second witness has no word twice in a row. *)
Theorem C107_later_stages : forall cc topo ratio w1 w2 rest o t, topo_ok topo -> good_sigla (w1 :: w2 :: rest) -> no_doublets (readings w2) ->
  o_segmentation o = false -> o_near o = false -> o_filter o = None -> collate cc topo ratio (w1 :: w2 :: rest) o = Ok (OTable t) ->
  (forall k, 3 <= k -> k < length (w1 :: w2 :: rest) -> clear (progressive (firstn k (map readings (w1 :: w2 :: rest))))) ->
  table_follows (progressive (map readings (w1 :: w2 :: rest))) (w1 :: w2 :: rest) t.
Proof.
  intros cc topo ratio w1 w2 rest o t TO G D S N F H C. refine (prog_table cc topo ratio (w1 :: w2 :: rest) o t TO G S N F H _).
  intros k Hk. destruct k as [|[|k]].
  - cbn [map firstn]. apply first_clear.
  - cbn [map firstn]. exact (second_clear cc topo ratio TO w1 w2 rest o (OTable t) G F H D).
  - apply C; [lia|exact Hk].
Qed.
Print Assumptions C107_later_stages.

(** Three witnesses with a moved word and a repeated one, and their table. *)
Definition three : collation := [words "A" ["a"; "b"; "c"]; words "B" ["x"; "b"; "a"; "c"]; words "C" ["b"; "x"; "b"; "c"]].
Example C107_three_example : good_sigla three /\ no_doublets (readings (words "B" ["x"; "b"; "a"; "c"])) /\
  exists t, collate ascii_cc kahn sample_ratio three (plain_options "table") = Ok (OTable t) /\ map c_variant (t_columns t) = [true; true; false; true; false].
Proof.
  split; [split; [repeat constructor; cbn; intuition discriminate|cbn; intuition discriminate]|].
  split; [intros i s H; destruct i as [|[|[|[|i]]]]; cbn in *; try discriminate; try (injection H as <-; discriminate); destruct i; discriminate|].
  destruct (collate ascii_cc kahn sample_ratio three (plain_options "table")) as [x|] eqn:E; [|exfalso; vm_compute in E; discriminate].
  vm_compute in E. injection E as <-. eexists. split; [reflexivity|]. reflexivity.
Qed.
