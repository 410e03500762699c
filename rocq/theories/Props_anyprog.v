(** The collation of any number of witnesses, without a condition on the stages (C107). *)
From Verif Require Import Py TokenModel SuffixModel IndexModel GraphModel AlignModel TableModel NearModel ExportModel
  CollateModel Lib GraphSpec TableSpec CollateSpec Samples TopoProof WalkSpec PairSpec ChosenSpec PairProof SegTableSpec ProgSpec SegProgSpec
  AnyProgSpec ProgProof SegProgProof AnyProgProof Props_prog.
From Coq Require Import QArith.
Open Scope list_scope.
Open Scope nat_scope.

(** ** C107: the result is that of an alignment of the texts that comes about by adding them one after the other
    (AnyProgSpec.one_by_one): each word of the next text that meets a place on the best way gets a node with this word at
    this place.  Nothing but the choice between nodes with the same word at the same place is left open. *)
Theorem C107_any_table : forall cc topo ratio c o t, topo_ok topo -> good_sigla c ->
  o_segmentation o = false -> o_near o = false -> o_filter o = None -> collate cc topo ratio c o = Ok (OTable t) ->
  exists A, one_by_one (map readings c) A /\
  length (threads A) = length c /\ length (t_rows t) = length c /\
  (forall th i j n n', In th (threads A) -> i < j -> nth_error th i = Some n -> nth_error th j = Some n' -> place_in A n < place_in A n') /\
  (forall k w th r, nth_error c k = Some w -> nth_error (threads A) k = Some th -> nth_error (t_rows t) k = Some r ->
    r_header r = w_sigil w /\ Forall2 (shows w) (map (at_column A th) (seq 1 (breadth A))) (r_cells r)) /\
  Forall2 (fun x col => c_variant col = false <-> exists n, place_in A n = x /\ forall th, In th (threads A) -> In n th) (seq 1 (breadth A)) (t_columns t).
Proof.
  intros cc topo ratio c o t TO G Hs Hn Hf H. destruct (any_alignment cc topo ratio c o _ TO G Hf H (or_introl (ex_intro _ t eq_refl))) as [A [OB HA]].
  exists A. split; [exact OB|]. exact (tied_table cc topo ratio c o t A TO G Hs Hn H HA).
Qed.
Print Assumptions C107_any_table.

Theorem C107_any_graph : forall cc topo ratio c o g, topo_ok topo -> good_sigla c ->
  o_segmentation o = false -> o_filter o = None -> collate cc topo ratio c o = Ok (OGraph g) ->
  exists A, one_by_one (map readings c) A /\
  exists f : nat -> vid, (forall n n', f n = f n' -> n = n') /\
    (forall v, In v (vertices g) <-> v = v_start \/ v = v_end \/ exists n, n < length (node_words A) /\ v = f n) /\
    (forall n, f n <> v_start /\ f n <> v_end) /\
    (forall m n, edge g (f m) (f n) <-> In (m, n) (followed A)) /\
    length (threads A) = length c /\
    forall k w th, nth_error c k = Some w -> nth_error (threads A) k = Some th -> stands_on g w (map f th).
Proof.
  intros cc topo ratio c o g TO G Hs Hf H. destruct (any_alignment cc topo ratio c o _ TO G Hf H (or_intror (ex_intro _ g eq_refl))) as [A [OB HA]].
  exists A. split; [exact OB|]. exact (tied_graph cc topo ratio c o g A TO G Hs H HA).
Qed.
Print Assumptions C107_any_graph.

Theorem C107_any_segmented : forall cc topo ratio c o t, topo_ok topo -> good_sigla c ->
  o_segmentation o = true -> o_near o = false -> o_filter o = None -> collate cc topo ratio c o = Ok (OTable t) ->
  exists A, one_by_one (map readings c) A /\
  let B := segmented A in
  length (threads A) = length c /\ length (t_rows t) = length c /\
  (forall th i j n n', In th (threads B) -> i < j -> nth_error th i = Some n -> nth_error th j = Some n' -> place_in B n < place_in B n') /\
  (forall k w th r, nth_error c k = Some w -> nth_error (threads A) k = Some th -> nth_error (t_rows t) k = Some r ->
    r_header r = w_sigil w /\ Forall2 (shows_all w) (map (segment_at A th) (seq 1 (columns_of B))) (r_cells r)) /\
  Forall2 (fun x col => c_variant col = false <-> exists n, place_in B n = x /\ forall th, In th (threads B) -> In n th) (seq 1 (columns_of B)) (t_columns t).
Proof.
  intros cc topo ratio c o t TO G Hs Hn Hf H. destruct (any_alignment cc topo ratio c o _ TO G Hf H (or_introl (ex_intro _ t eq_refl))) as [A [OB HA]].
  exists A. split; [exact OB|]. exact (seg_tied_table cc topo ratio c o t A TO G Hs Hn H HA).
Qed.
Print Assumptions C107_any_segmented.

Theorem C107_any_segmented_graph : forall cc topo ratio c o g, topo_ok topo -> good_sigla c ->
  o_segmentation o = true -> o_near o = false -> o_filter o = None -> collate cc topo ratio c o = Ok (OGraph g) ->
  exists A, one_by_one (map readings c) A /\
  let B := segmented A in
  exists f : nat -> vid, (forall n n', f n = f n' -> n = n') /\ (forall n, f n <> v_start /\ f n <> v_end) /\
    (forall v, In v (vertices g) <-> v = v_start \/ v = v_end \/ exists n th, In th (threads B) /\ In n th /\ v = f n) /\
    (forall m n, edge g (f m) (f n) <-> In (m, n) (followed B)) /\
    length (threads A) = length c /\
    forall k w th i s, nth_error c k = Some w -> nth_error (threads A) k = Some th -> nth_error (segments A th) i = Some s ->
      exists vx, dget Nat.eqb (f (hd 0 s)) (g_verts g) = Some vx /\
        shows_all w (positions (length (concat (firstn i (segments A th)))) (length (concat (firstn (S i) (segments A th))))) (dget str_eqb (w_sigil w) (v_tokens vx)).
Proof.
  intros cc topo ratio c o g TO G Hs Hn Hf H. destruct (any_alignment cc topo ratio c o _ TO G Hf H (or_intror (ex_intro _ g eq_refl))) as [A [OB HA]].
  exists A. split; [exact OB|]. exact (seg_tied_graph cc topo ratio c o g A TO G Hs Hn H HA).
Qed.
Print Assumptions C107_any_segmented_graph.

(** Such an alignment has every text; and if at no stage two nodes at the same place have the same word there is exactly
    one, the one of C107_table. *)
Theorem C107_any_texts : forall texts A, one_by_one texts A -> Forall2 (fun text th => map (nth_error (node_words A)) th = map Some text) texts (threads A).
Proof. exact any_spelled. Qed.
Print Assumptions C107_any_texts.

Theorem C107_any_clear : forall texts, (forall k, S k < length texts -> clear (progressive (firstn (S k) texts))) ->
  forall A, one_by_one texts A <-> A = progressive texts.
Proof. exact one_by_one_clear. Qed.
Print Assumptions C107_any_clear.

(** The collation of C107_ambiguous_refuted: the alignment with the choice the program makes, and the one with the other
    choice; its last stage is not clear. *)
Example C107_any_example : good_sigla unclear /\
  one_by_one (map readings unclear) {| node_words := [lit "a"; lit "b"; lit "a"; lit "c"]; threads := [[0]; [1]; [2; 3; 1]; [2]] |} /\
  one_by_one (map readings unclear) {| node_words := [lit "a"; lit "b"; lit "a"; lit "c"]; threads := [[0]; [1]; [2; 3; 1]; [0]] |} /\
  exists t, collate ascii_cc kahn sample_ratio unclear (plain_options "table") = Ok (OTable t) /\ length (t_columns t) = 3.
Proof.
  assert (B : one_by_one (firstn 3 (map readings unclear)) (progressive (firstn 3 (map readings unclear)))).
  { apply one_by_one_clear; [|reflexivity]. intros k Hk. apply clearb_clear. cbn [unclear map firstn length] in Hk. destruct k as [|[|k]]; [..|lia]; vm_compute; reflexivity. }
  split; [split; [repeat constructor; cbn; intuition discriminate|cbn; intuition discriminate]|].
  assert (C : forall n, n = 2 \/ n = 0 -> a_choice (progressive (firstn 3 (map readings unclear))) (readings (words "D" ["a"]))
    (meetings (progressive (firstn 3 (map readings unclear))) (readings (words "D" ["a"]))) (fun _ => n)).
  { intros n N i s x T I. assert (M : meetings (progressive (firstn 3 (map readings unclear))) (readings (words "D" ["a"])) = [(1, 1)]) by (vm_compute; reflexivity).
    rewrite M in I. destruct I as [I|[]]. injection I as <- <-. cbn in T. injection T as <-. destruct N as [-> | ->]; vm_compute; reflexivity. }
  split; [exact (one_more _ _ _ _ B (C 2 (or_introl eq_refl)))|]. split; [exact (one_more _ _ _ _ B (C 0 (or_intror eq_refl)))|].
  destruct (collate ascii_cc kahn sample_ratio unclear (plain_options "table")) as [x|] eqn:E; [|exfalso; vm_compute in E; discriminate].
  vm_compute in E. injection E as <-. eexists. split; [reflexivity|]. vm_compute; reflexivity.
Qed.
