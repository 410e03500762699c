(** The collation of any number of witnesses (C107). *)
From Verif Require Import Py TokenModel SuffixModel IndexModel GraphModel AlignModel TableModel NearModel ExportModel
  CollateModel Lib GraphSpec TableSpec CollateSpec Samples TopoProof WalkSpec PairSpec ChosenSpec PairProof ProgSpec ProgProof Props_grow.
From Coq Require Import QArith.
Open Scope list_scope.
Open Scope nat_scope.

(** ** C107: the result is that of aligning the texts one after the other (ProgSpec.progressive), whatever their
    number, as long as at no stage two nodes at the same place have the same word.  The rows are those of the
    witnesses; the row of a witness has in column x its word at place x of the reference alignment, or no cell; and
    a column is invariant if one node at its place is on the threads of all texts. *)
Theorem C107_table : forall cc topo ratio c o t, topo_ok topo -> good_sigla c ->
  o_segmentation o = false -> o_near o = false -> o_filter o = None -> collate cc topo ratio c o = Ok (OTable t) ->
  (forall k, S k < length c -> clear (progressive (firstn (S k) (map readings c)))) ->
  let A := progressive (map readings c) in
  length (threads A) = length c /\ length (t_rows t) = length c /\
  (forall th i j n n', In th (threads A) -> i < j -> nth_error th i = Some n -> nth_error th j = Some n' -> place_in A n < place_in A n') /\
  (forall k w th r, nth_error c k = Some w -> nth_error (threads A) k = Some th -> nth_error (t_rows t) k = Some r ->
    r_header r = w_sigil w /\ Forall2 (shows w) (map (at_column A th) (seq 1 (breadth A))) (r_cells r)) /\
  Forall2 (fun x col => c_variant col = false <-> exists n, place_in A n = x /\ forall th, In th (threads A) -> In n th) (seq 1 (breadth A)) (t_columns t).
Proof. exact prog_table. Qed.
Print Assumptions C107_table.

(** The variant graph has a vertex for every node, besides the start and the end; two vertices are joined by an edge
    if the nodes follow each other in a text; and the tokens of every witness stand on the nodes of its thread.
    Near matching does not change this. *)
Theorem C107_graph : forall cc topo ratio c o g, topo_ok topo -> good_sigla c ->
  o_segmentation o = false -> o_filter o = None -> collate cc topo ratio c o = Ok (OGraph g) ->
  (forall k, S k < length c -> clear (progressive (firstn (S k) (map readings c)))) ->
  let A := progressive (map readings c) in
  exists f : nat -> vid, (forall n n', f n = f n' -> n = n') /\
    (forall v, In v (vertices g) <-> v = v_start \/ v = v_end \/ exists n, n < length (node_words A) /\ v = f n) /\
    (forall n, f n <> v_start /\ f n <> v_end) /\
    (forall m n, edge g (f m) (f n) <-> In (m, n) (followed A)) /\
    length (threads A) = length c /\
    forall k w th, nth_error c k = Some w -> nth_error (threads A) k = Some th -> stands_on g w (map f th).
Proof. exact prog_graph. Qed.
Print Assumptions C107_graph.

(** The reference alignment has every text: the words on the nodes of its thread are its words. *)
Theorem C107_texts : forall texts, let A := progressive texts in Forall2 (fun text th => map (nth_error (node_words A)) th = map Some text) texts (threads A).
Proof. exact spelled. Qed.
Print Assumptions C107_texts.

(** The condition on the stages is needed.  When D is added in this collation the word a stands on two nodes at the
    same place, one of A and one of C.  The reference alignment takes the first of them, the program the other; and
    C64_ambiguous_refuted shows that no rule about the texts so far describes the program's choice. *)
Definition unclear : collation := [words "A" ["a"]; words "B" ["b"]; words "C" ["a"; "c"; "b"]; words "D" ["a"]].
Theorem C107_ambiguous_refuted : exists g, good_sigla unclear /\ collate ascii_cc kahn sample_ratio unclear (plain_options "graph") = Ok (OGraph g) /\
  threads (progressive (map readings unclear)) = [[0]; [1]; [2; 3; 1]; [0]] /\
  on_one_vertex g (lit "A") 0 (lit "D") 8 = false /\ on_one_vertex g (lit "C") 4 (lit "D") 8 = true.
Proof.
  destruct (collate ascii_cc kahn sample_ratio unclear (plain_options "graph")) as [x|] eqn:E; [|exfalso; vm_compute in E; discriminate].
  vm_compute in E. injection E as <-. eexists. split; [split; [repeat constructor; cbn; intuition discriminate|cbn; intuition discriminate]|].
  split; [reflexivity|]. split; [vm_compute; reflexivity|]. split; vm_compute; reflexivity.
Qed.
Print Assumptions C107_ambiguous_refuted.

(** Four witnesses with repeated, moved and omitted words, and their table. *)
Definition four : collation :=
  [words "A" ["a"; "b"; "c"]; words "B" ["x"; "y"; "b"; "b"; "c"]; words "C" ["b"; "x"; "c"]; words "D" ["b"; "c"; "x"; "y"]].
Example C107_example : good_sigla four /\ (forall k, S k < length four -> clear (progressive (firstn (S k) (map readings four)))) /\
  threads (progressive (map readings four)) = [[0; 1; 2]; [3; 4; 5; 1; 2]; [5; 6; 2]; [5; 7; 6; 8]] /\
  breadth (progressive (map readings four)) = 6 /\
  exists t, collate ascii_cc kahn sample_ratio four (plain_options "table") = Ok (OTable t) /\ length (t_columns t) = 6.
Proof.
  split; [split; [repeat constructor; cbn; intuition discriminate|cbn; intuition discriminate]|]. split.
  - intros k Hk. apply clearb_clear. cbn [four length] in Hk. destruct k as [|[|[|k]]]; [..|lia]; vm_compute; reflexivity.
  - split; [vm_compute; reflexivity|]. split; [vm_compute; reflexivity|].
    destruct (collate ascii_cc kahn sample_ratio four (plain_options "table")) as [x|] eqn:E; [|exfalso; vm_compute in E; discriminate].
    vm_compute in E. injection E as <-. eexists. split; [reflexivity|]. vm_compute; reflexivity.
Qed.
