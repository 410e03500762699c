(** Filters that accept everything or nothing (C91). *)
From Verif Require Import Py Lib TokenModel SuffixModel IndexModel GraphModel AlignModel TableModel NearModel ExportModel
  CollateModel GraphSpec CollateSpec TableSpec GraphProof MergeProof BlockText InstProof CubeProof AlignProof AlignerProof RankProof TableProof CollateProof IndexProof StageProof
  ResultProof FactsProof Props_collate Props_size TopoProof Samples SizeSpec ExtremesProof.
From Coq Require Import QArith.
Open Scope list_scope.
Open Scope nat_scope.

Definition set_filter (o : options) (f : option props_filter) : options :=
  {| o_output := o_output o; o_vertical := o_vertical o; o_segmentation := o_segmentation o; o_near := o_near o;
     o_astar := o_astar o; o_transp := o_transp o; o_filter := f; o_indent := o_indent o |}.

(** ** C91: a filter that accepts every pair of tokens changes nothing, in any output. *)
Theorem C91_accept_all : forall cc topo ratio c o f, topo_ok topo -> c <> [] -> good_sigla c -> no_empty_witness c -> ~ marker_clash (Some f) c ->
  o_transp o = false -> (forall a b, f a b = true) ->
  collate cc topo ratio c (set_filter o (Some f)) = collate cc topo ratio c (set_filter o None).
Proof.
  intros cc topo ratio c o f TO NC [ND NE] FA NM Ot YES. unfold collate, collate_graph. cbn [set_filter o_astar o_filter o_transp o_near o_segmentation].
  destruct (o_astar o); [reflexivity|]. rewrite Ot.
  assert (exists x, aligner_collate topo (Some f) false c = Ok x) as [x E].
  { destruct (prepare_total c NC ND FA) as [ti P]. pose proof (prepare_index_ok c ti ND P) as IX. pose proof (prepare_text_ok c ti P) as TX.
    destruct (align_all_total c ti (Some f) IX TX NE topo TO) as [st A].
    - apply (no_clash_wits c ti _ IX NM).
    - rewrite (ix_wits _ _ IX). destruct c; [congruence|discriminate].
    - exists (ti, a_graph st). unfold aligner_collate. rewrite P. cbn [bind]. rewrite A. reflexivity. }
  rewrite (collate_less f YES topo false c x E), E. reflexivity.
Qed.
Print Assumptions C91_accept_all.

(** Whatever the collation: a result with such a filter is the result without. *)
Theorem C91_accept_all_result : forall cc topo ratio c o f x, (forall a b, f a b = true) ->
  collate cc topo ratio c (set_filter o (Some f)) = Ok x -> collate cc topo ratio c (set_filter o None) = Ok x.
Proof.
  intros cc topo ratio c o f x YES H. unfold collate, collate_graph in *. cbn [set_filter o_astar o_filter o_transp o_near o_segmentation] in *.
  destruct (o_astar o); [discriminate H|]. apply bind_ok in H as [gr [H1 H]]. apply bind_ok in H1 as [[ti g] [H1 H2]].
  rewrite (collate_less f YES topo _ c _ H1). cbn [bind]. rewrite H2. cbn [bind]. exact H.
Qed.
Print Assumptions C91_accept_all_result.

(** But a word that looks like one of the internal separators makes the collation fail with the filter only. *)
Definition dollar_one : collation := [words "A" ["a"; "$1"]; words "B" ["a"; "b"]; words "C" ["b"; "c"]].
Theorem C91_marker_refuted : good_sigla dollar_one /\ no_empty_witness dollar_one /\
  collate ascii_cc kahn sample_ratio dollar_one (set_filter (plain_options "table") (Some (fun _ _ => true))) = Raise KeyError /\
  exists t, collate ascii_cc kahn sample_ratio dollar_one (set_filter (plain_options "table") None) = Ok (OTable t).
Proof.
  split; [split; [repeat constructor; cbn; intuition discriminate|cbn; intuition discriminate]|]. split; [repeat constructor; cbn; discriminate|].
  split; [vm_compute; reflexivity|]. eexists. vm_compute. reflexivity.
Qed.
Print Assumptions C91_marker_refuted.

(** A filter that accepts no pair of tokens sets the witnesses side by side from the left. *)
Theorem C91_accept_none : forall cc topo ratio c o f t, topo_ok topo -> good_sigla c -> o_near o = false -> o_segmentation o = false ->
  o_filter o = Some f -> (forall a b, f a b = false) -> collate cc topo ratio c o = Ok (OTable t) ->
  length (t_columns t) = longest_witness c /\
  Forall2 (fun w ro => r_header ro = w_sigil w /\
    exists ts, Forall2 (came_from (w_sigil w)) (w_toks w) ts /\
      r_cells ro = map (fun k => Some [k]) ts ++ repeat None (longest_witness c - length (w_toks w))) c (t_rows t).
Proof.
  intros cc topo ratio c o f t TO GS On Os Hf NO H. apply (apart_plain_table cc topo ratio c o t TO GS); try assumption.
  apply (reject_all_apart cc topo ratio TO c o f GS On Hf NO).
Qed.
Print Assumptions C91_accept_none.

(** With segmentation every witness is one segment. *)
Theorem C91_accept_none_segments : forall cc topo ratio c o f t, topo_ok topo -> good_sigla c -> o_near o = false -> o_segmentation o = true ->
  o_filter o = Some f -> (forall a b, f a b = false) -> collate cc topo ratio c o = Ok (OTable t) ->
  length (t_columns t) = 1 /\
  Forall2 (fun w ro => r_header ro = w_sigil w /\
    exists ts, Forall2 (came_from (w_sigil w)) (w_toks w) ts /\ r_cells ro = [Some ts]) c (t_rows t).
Proof.
  intros cc topo ratio c o f t TO GS On Os Hf NO H. apply (apart_seg_table cc topo ratio c o t TO GS); try assumption.
  apply (reject_all_apart cc topo ratio TO c o f GS On Hf NO).
Qed.
Print Assumptions C91_accept_none_segments.

(** Both at work on texts that agree in two of three words. *)
Definition two_agreeing : collation := [words "A" ["a"; "x"; "b"]; words "B" ["a"; "b"]].
Example C91_example : good_sigla two_agreeing /\ no_empty_witness two_agreeing /\
  table_of (collate ascii_cc kahn sample_ratio two_agreeing (set_filter (plain_options "table") (Some (fun _ _ => true)))) =
    table_of (collate ascii_cc kahn sample_ratio two_agreeing (set_filter (plain_options "table") None)) /\
  table_of (collate ascii_cc kahn sample_ratio two_agreeing (set_filter (plain_options "table") (Some (fun _ _ => false)))) =
    Ok [[[lit "a"]; [lit "x"]; [lit "b"]]; [[lit "a"]; [lit "b"]; []]] /\
  table_of (collate ascii_cc kahn sample_ratio two_agreeing (set_filter (seg_options "table") (Some (fun _ _ => false)))) =
    Ok [[[lit "a"; lit "x"; lit "b"]]; [[lit "a"; lit "b"]]].
Proof.
  split; [split; [repeat constructor; cbn; intuition discriminate|cbn; intuition discriminate]|]. split; [repeat constructor; cbn; discriminate|].
  repeat split; vm_compute; reflexivity.
Qed.
