(** Collations with a filter that looks only at the token to be aligned (C108). *)
From Verif Require Import Py TokenModel SuffixModel IndexModel GraphModel AlignModel TableModel NearModel ExportModel
  CollateModel Lib GraphSpec TableSpec CollateSpec Samples TopoProof WalkSpec PairSpec ChosenSpec PairProof SegTableSpec ProgSpec SegProgSpec
  AnyProgSpec FiltProgSpec ProgProof SegProgProof AnyProgProof FiltProgProof Props_prog.
From Coq Require Import QArith.
Open Scope list_scope.
Open Scope nat_scope.

(** ** C108: with such a filter the result is that of an alignment of the texts added one after the other, in which the
    words the filter refuses meet no place (FiltProgSpec.marked_one_by_one). *)
Theorem C108_table : forall cc topo ratio c o f h t, topo_ok topo -> good_sigla c -> no_internal_keys c ->
  o_segmentation o = false -> o_near o = false -> o_filter o = Some f -> (forall token earlier, f token earlier = h token) -> collate cc topo ratio c o = Ok (OTable t) ->
  exists A, marked_one_by_one (map (marked h) c) A /\
  length (threads A) = length c /\ length (t_rows t) = length c /\
  (forall th i j n n', In th (threads A) -> i < j -> nth_error th i = Some n -> nth_error th j = Some n' -> place_in A n < place_in A n') /\
  (forall k w th r, nth_error c k = Some w -> nth_error (threads A) k = Some th -> nth_error (t_rows t) k = Some r ->
    r_header r = w_sigil w /\ Forall2 (shows w) (map (at_column A th) (seq 1 (breadth A))) (r_cells r)) /\
  Forall2 (fun x col => c_variant col = false <-> exists n, place_in A n = x /\ forall th, In th (threads A) -> In n th) (seq 1 (breadth A)) (t_columns t).
Proof.
  intros cc topo ratio c o f h t TO G NK Hs Hn Hf FH H. destruct (marked_alignment cc topo ratio c o f h _ TO G NK Hf FH H (or_introl (ex_intro _ t eq_refl))) as [A [OB HA]].
  exists A. split; [exact OB|]. exact (tied_table cc topo ratio c o t A TO G Hs Hn H HA).
Qed.
Print Assumptions C108_table.

Theorem C108_graph : forall cc topo ratio c o f h g, topo_ok topo -> good_sigla c -> no_internal_keys c ->
  o_segmentation o = false -> o_filter o = Some f -> (forall token earlier, f token earlier = h token) -> collate cc topo ratio c o = Ok (OGraph g) ->
  exists A, marked_one_by_one (map (marked h) c) A /\
  exists vx_at : nat -> vid, (forall n n', vx_at n = vx_at n' -> n = n') /\
    (forall v, In v (vertices g) <-> v = v_start \/ v = v_end \/ exists n, n < length (node_words A) /\ v = vx_at n) /\
    (forall n, vx_at n <> v_start /\ vx_at n <> v_end) /\
    (forall m n, edge g (vx_at m) (vx_at n) <-> In (m, n) (followed A)) /\
    length (threads A) = length c /\
    forall k w th, nth_error c k = Some w -> nth_error (threads A) k = Some th -> stands_on g w (map vx_at th).
Proof.
  intros cc topo ratio c o f h g TO G NK Hs Hf FH H. destruct (marked_alignment cc topo ratio c o f h _ TO G NK Hf FH H (or_intror (ex_intro _ g eq_refl))) as [A [OB HA]].
  exists A. split; [exact OB|]. exact (tied_graph cc topo ratio c o g A TO G Hs H HA).
Qed.
Print Assumptions C108_graph.

Theorem C108_segmented : forall cc topo ratio c o f h t, topo_ok topo -> good_sigla c -> no_internal_keys c ->
  o_segmentation o = true -> o_near o = false -> o_filter o = Some f -> (forall token earlier, f token earlier = h token) -> collate cc topo ratio c o = Ok (OTable t) ->
  exists A, marked_one_by_one (map (marked h) c) A /\
  let B := segmented A in
  length (threads A) = length c /\ length (t_rows t) = length c /\
  (forall th i j n n', In th (threads B) -> i < j -> nth_error th i = Some n -> nth_error th j = Some n' -> place_in B n < place_in B n') /\
  (forall k w th r, nth_error c k = Some w -> nth_error (threads A) k = Some th -> nth_error (t_rows t) k = Some r ->
    r_header r = w_sigil w /\ Forall2 (shows_all w) (map (segment_at A th) (seq 1 (columns_of B))) (r_cells r)) /\
  Forall2 (fun x col => c_variant col = false <-> exists n, place_in B n = x /\ forall th, In th (threads B) -> In n th) (seq 1 (columns_of B)) (t_columns t).
Proof.
  intros cc topo ratio c o f h t TO G NK Hs Hn Hf FH H. destruct (marked_alignment cc topo ratio c o f h _ TO G NK Hf FH H (or_introl (ex_intro _ t eq_refl))) as [A [OB HA]].
  exists A. split; [exact OB|]. exact (seg_tied_table cc topo ratio c o t A TO G Hs Hn H HA).
Qed.
Print Assumptions C108_segmented.

Theorem C108_segmented_graph : forall cc topo ratio c o f h g, topo_ok topo -> good_sigla c -> no_internal_keys c ->
  o_segmentation o = true -> o_near o = false -> o_filter o = Some f -> (forall token earlier, f token earlier = h token) -> collate cc topo ratio c o = Ok (OGraph g) ->
  exists A, marked_one_by_one (map (marked h) c) A /\
  let B := segmented A in
  exists vx_at : nat -> vid, (forall n n', vx_at n = vx_at n' -> n = n') /\ (forall n, vx_at n <> v_start /\ vx_at n <> v_end) /\
    (forall v, In v (vertices g) <-> v = v_start \/ v = v_end \/ exists n th, In th (threads B) /\ In n th /\ v = vx_at n) /\
    (forall m n, edge g (vx_at m) (vx_at n) <-> In (m, n) (followed B)) /\
    length (threads A) = length c /\
    forall k w th i s, nth_error c k = Some w -> nth_error (threads A) k = Some th -> nth_error (segments A th) i = Some s ->
      exists vx, dget Nat.eqb (vx_at (hd 0 s)) (g_verts g) = Some vx /\
        shows_all w (positions (length (concat (firstn i (segments A th)))) (length (concat (firstn (S i) (segments A th))))) (dget str_eqb (w_sigil w) (v_tokens vx)).
Proof.
  intros cc topo ratio c o f h g TO G NK Hs Hn Hf FH H. destruct (marked_alignment cc topo ratio c o f h _ TO G NK Hf FH H (or_intror (ex_intro _ g eq_refl))) as [A [OB HA]].
  exists A. split; [exact OB|]. exact (seg_tied_graph cc topo ratio c o g A TO G Hs Hn H HA).
Qed.
Print Assumptions C108_segmented_graph.

(** Such an alignment has every text; a refused word shares its node with no text before; and if nothing is refused it is
    one of C107. *)
Theorem C108_texts : forall texts A, marked_one_by_one texts A ->
  Forall2 (fun text th => map (nth_error (node_words A)) th = map Some (map fst text)) texts (threads A).
Proof. exact marked_spelled. Qed.
Print Assumptions C108_texts.

Theorem C108_refused : forall texts A, marked_one_by_one texts A -> forall k text th i s n, nth_error texts k = Some text -> nth_error (threads A) k = Some th ->
  nth_error text i = Some (s, false) -> nth_error th i = Some n -> forall j th', j < k -> nth_error (threads A) j = Some th' -> ~ In n th'.
Proof. exact refused_new. Qed.
Print Assumptions C108_refused.

Theorem C108_nothing_refused : forall texts A, marked_one_by_one (map (map (fun s => (s, true))) texts) A <-> one_by_one texts A.
Proof. exact marked_all. Qed.
Print Assumptions C108_nothing_refused.

(** Tokens tagged as common words are not to be aligned: the first word of the second witness is in the first one too, yet
    it stands before it. *)
Definition no_common (token : jdict) : bool :=
  match dget str_eqb (lit "k") token with Some (JStr x) => negb (str_eqb x (lit "common")) | _ => true end.
Definition common_options (out : String.string) : options :=
  {| o_output := lit out; o_vertical := false; o_segmentation := false; o_near := false;
     o_astar := false; o_transp := false; o_filter := Some (fun token _ => no_common token); o_indent := false |}.
Definition common_words : collation :=
  [{| w_sigil := lit "A"; w_toks := [tagged "the" "common"; tagged "cat" "rare"] |};
   {| w_sigil := lit "B"; w_toks := [tagged "the" "common"; tagged "cat" "rare"] |}].
Example C108_example : good_sigla common_words /\ no_internal_keys common_words /\
  map (marked no_common) common_words = [[(lit "the", false); (lit "cat", true)]; [(lit "the", false); (lit "cat", true)]] /\
  marked_one_by_one (map (marked no_common) common_words) {| node_words := [lit "the"; lit "cat"; lit "the"]; threads := [[0; 1]; [2; 1]] |} /\
  (exists t, collate ascii_cc kahn sample_ratio common_words (common_options "table") = Ok (OTable t) /\ map c_variant (t_columns t) = [true; false]) /\
  (exists t, collate ascii_cc kahn sample_ratio common_words (plain_options "table") = Ok (OTable t) /\ map c_variant (t_columns t) = [false; false]).
Proof.
  split; [split; [repeat constructor; cbn; intuition discriminate|cbn; intuition discriminate]|].
  split; [intros w t [<-|[<-|[]]] [<-|[<-|[]]]; split; cbn; intuition discriminate|].
  split; [reflexivity|]. split.
  - set (m := [(lit "the", false); (lit "cat", true)]).
    assert (M : marked_meetings (add_text nothing (map fst m)) m = [(2, 2)]) by (vm_compute; reflexivity).
    pose proof (one_more_marked [m] (add_text nothing (map fst m)) m (fun _ => 1) (first_marked m)) as H. rewrite M in H.
    apply H. intros i s x T [I|[]]. injection I as <- <-. cbn in T. injection T as <-. vm_compute; reflexivity.
  - split.
    + destruct (collate ascii_cc kahn sample_ratio common_words (common_options "table")) as [x|] eqn:E; [|exfalso; vm_compute in E; discriminate].
      vm_compute in E. injection E as <-. eexists. split; [reflexivity|]. vm_compute; reflexivity.
    + destruct (collate ascii_cc kahn sample_ratio common_words (plain_options "table")) as [x|] eqn:E; [|exfalso; vm_compute in E; discriminate].
      vm_compute in E. injection E as <-. eexists. split; [reflexivity|]. vm_compute; reflexivity.
Qed.
