(** The collation of any number of witnesses with segmentation (C107). *)
From Verif Require Import Py TokenModel SuffixModel IndexModel GraphModel AlignModel TableModel NearModel ExportModel
  CollateModel Lib GraphSpec TableSpec CollateSpec Samples TopoProof WalkSpec PairSpec ChosenSpec PairProof SegTableSpec ProgSpec SegProgSpec ProgProof ProgTwo SegProgProof.
From Coq Require Import QArith.
Open Scope list_scope.
Open Scope nat_scope.

(** ** C107 with segmentation: the columns are those of the segments of the reference alignment.  Two nodes that always
    occur directly after each other belong to one segment (SegProgSpec.together); the segments have places as nodes have;
    the cell of a witness in column x lists its words in the segment at place x; and a column is invariant if one
    segment at its place is on the threads of all texts. *)
Theorem C107_segmented : forall cc topo ratio c o t, topo_ok topo -> good_sigla c ->
  o_segmentation o = true -> o_near o = false -> o_filter o = None -> collate cc topo ratio c o = Ok (OTable t) ->
  (forall k, S k < length c -> clear (progressive (firstn (S k) (map readings c)))) ->
  let A := progressive (map readings c) in
  let B := segmented A in
  length (threads A) = length c /\ length (t_rows t) = length c /\
  (forall th i j n n', In th (threads B) -> i < j -> nth_error th i = Some n -> nth_error th j = Some n' -> place_in B n < place_in B n') /\
  (forall k w th r, nth_error c k = Some w -> nth_error (threads A) k = Some th -> nth_error (t_rows t) k = Some r ->
    r_header r = w_sigil w /\ Forall2 (shows_all w) (map (segment_at A th) (seq 1 (columns_of B))) (r_cells r)) /\
  Forall2 (fun x col => c_variant col = false <-> exists n, place_in B n = x /\ forall th, In th (threads B) -> In n th) (seq 1 (columns_of B)) (t_columns t).
Proof. exact seg_prog_table. Qed.
Print Assumptions C107_segmented.

(** The graph: a vertex for every segment, besides the start and the end; an edge where one segment follows another in a
    text; and the vertex of a segment has the tokens of every witness for the words of its segment. *)
Theorem C107_segmented_graph : forall cc topo ratio c o g, topo_ok topo -> good_sigla c ->
  o_segmentation o = true -> o_near o = false -> o_filter o = None -> collate cc topo ratio c o = Ok (OGraph g) ->
  (forall k, S k < length c -> clear (progressive (firstn (S k) (map readings c)))) ->
  let A := progressive (map readings c) in
  let B := segmented A in
  exists f : nat -> vid, (forall n n', f n = f n' -> n = n') /\ (forall n, f n <> v_start /\ f n <> v_end) /\
    (forall v, In v (vertices g) <-> v = v_start \/ v = v_end \/ exists n th, In th (threads B) /\ In n th /\ v = f n) /\
    (forall m n, edge g (f m) (f n) <-> In (m, n) (followed B)) /\
    length (threads A) = length c /\
    forall k w th i s, nth_error c k = Some w -> nth_error (threads A) k = Some th -> nth_error (segments A th) i = Some s ->
      exists vx, dget Nat.eqb (f (hd 0 s)) (g_verts g) = Some vx /\
        shows_all w (positions (length (concat (firstn i (segments A th)))) (length (concat (firstn (S i) (segments A th))))) (dget str_eqb (w_sigil w) (v_tokens vx)).
Proof. exact seg_prog_graph. Qed.
Print Assumptions C107_segmented_graph.

(** The segments of a thread are the thread, cut into pieces with at least one node. *)
Theorem C107_segments : forall A th, concat (segments A th) = th /\ forall s, In s (segments A th) -> s <> [].
Proof. exact segments_concat. Qed.
Print Assumptions C107_segments.

(** Up to two witnesses, and three of which the second has no word twice in a row: no condition on the stages. *)
Theorem C107_segmented_three : forall cc topo ratio c o t, topo_ok topo -> good_sigla c -> length c <= 3 ->
  (length c = 3 -> exists w2, nth_error c 1 = Some w2 /\ no_doublets (readings w2)) ->
  o_segmentation o = true -> o_near o = false -> o_filter o = None -> collate cc topo ratio c o = Ok (OTable t) ->
  let A := progressive (map readings c) in
  let B := segmented A in
  length (threads A) = length c /\ length (t_rows t) = length c /\
  (forall th i j n n', In th (threads B) -> i < j -> nth_error th i = Some n -> nth_error th j = Some n' -> place_in B n < place_in B n') /\
  (forall k w th r, nth_error c k = Some w -> nth_error (threads A) k = Some th -> nth_error (t_rows t) k = Some r ->
    r_header r = w_sigil w /\ Forall2 (shows_all w) (map (segment_at A th) (seq 1 (columns_of B))) (r_cells r)) /\
  Forall2 (fun x col => c_variant col = false <-> exists n, place_in B n = x /\ forall th, In th (threads B) -> In n th) (seq 1 (columns_of B)) (t_columns t).
Proof.
  intros cc topo ratio c o t TO G L D S N F H. apply (seg_prog_table cc topo ratio c o t TO G S N F H).
  destruct c as [|w1 [|w2 [|w3 [|? ?]]]]; cbn [length] in *; intros k Hk; [lia|lia| | |lia].
  - assert (k = 0) by lia. subst k. apply first_clear.
  - assert (E : k = 0 \/ k = 1) by lia. destruct E as [-> | ->]; cbn [map firstn]; [apply first_clear|].
    destruct (D eq_refl) as [w [E D']]. injection E as <-. exact (second_clear cc topo ratio TO w1 w2 [w3] o (OTable t) G F H D').
Qed.
Print Assumptions C107_segmented_three.

Definition three_texts : collation := [words "A" ["a"; "b"; "c"; "d"]; words "B" ["a"; "b"; "x"; "d"]; words "C" ["c"; "d"; "a"; "b"]].
Example C107_segmented_example : good_sigla three_texts /\ (forall k, S k < length three_texts -> clear (progressive (firstn (S k) (map readings three_texts)))) /\
  map (segments (progressive (map readings three_texts))) (threads (progressive (map readings three_texts))) = [[[0; 1]; [2]; [3]]; [[0; 1]; [4]; [3]]; [[5; 6]; [0; 1]]] /\
  columns_of (segmented (progressive (map readings three_texts))) = 4 /\
  exists t, collate ascii_cc kahn sample_ratio three_texts (seg_options "table") = Ok (OTable t) /\ map c_variant (t_columns t) = [true; false; true; true].
Proof.
  split; [split; [repeat constructor; cbn; intuition discriminate|cbn; intuition discriminate]|]. split.
  - intros k Hk. apply clearb_clear. cbn [three_texts length] in Hk. destruct k as [|[|[|k]]]; [..|lia|lia]; vm_compute; reflexivity.
  - split; [vm_compute; reflexivity|]. split; [vm_compute; reflexivity|].
    destruct (collate ascii_cc kahn sample_ratio three_texts (seg_options "table")) as [x|] eqn:E; [|exfalso; vm_compute in E; discriminate].
    vm_compute in E. injection E as <-. eexists. split; [reflexivity|]. vm_compute; reflexivity.
Qed.
