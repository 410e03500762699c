(** Witnesses without a name (C42). *)
From Verif Require Import Py Lib TokenModel SuffixModel IndexModel GraphModel AlignModel TableModel NearModel ExportModel
  CollateModel GraphSpec CollateSpec TokenSpec ParamSpec ParamProof RenameSpec RenameProof RankProof UnnamedSpec UnnamedTable ResultProof Samples.
From Coq Require Import QArith.
Open Scope list_scope.
Open Scope nat_scope.

(** C42, the full property: a witness whose name is the empty string is treated like any other.  It is
    false (C42_empty_siglum_refuted, C42_first_refuted below).  What holds instead, exactly: compare
    with the collation in which the witness has some other unused name.  The outcome is the same error,
    or a graph with the same vertices and edges and the same tokens of all other witnesses, in which a
    token of the unnamed witness is kept exactly if it shares its vertex with an earlier witness. *)
Theorem C42_unnamed_graph_partial : forall cc topo ratio pre w post s o, by_shape topo -> topo_ok topo ->
  w_sigil w = [] -> NoDup (map w_sigil (pre ++ w :: post)) -> s <> [] -> ~ In s (map w_sigil (pre ++ w :: post)) ->
  o_output o = lit "graph" ->
  match collate cc topo ratio (pre ++ under s w :: post) o with
  | Ok (OGraph g) => exists g', collate cc topo ratio (pre ++ w :: post) o = Ok (OGraph g') /\ unnamed_graph s (map w_sigil pre) g g'
  | Ok _ => False
  | Raise e => collate cc topo ratio (pre ++ w :: post) o = Raise e
  end.
Proof. intros. apply graph_unnamed; assumption. Qed.
Print Assumptions C42_unnamed_graph_partial.

(** The table: as many rows and columns, the rows of all other witnesses as they were, and in the row
    of the unnamed witness only tokens where they were, each beside the same reading of an earlier
    witness. *)
Theorem C42_unnamed_table_partial : forall cc topo ratio pre w post s o, by_shape topo -> topo_ok topo ->
  w_sigil w = [] -> NoDup (map w_sigil (pre ++ w :: post)) -> s <> [] -> ~ In s (map w_sigil (pre ++ w :: post)) ->
  o_near o = false -> o_output o = lit "table" ->
  match collate cc topo ratio (pre ++ under s w :: post) o with
  | Ok (OTable t) => exists t', collate cc topo ratio (pre ++ w :: post) o = Ok (OTable t') /\ unnamed_table (length pre) t t'
  | Ok _ => False
  | Raise e => collate cc topo ratio (pre ++ w :: post) o = Raise e
  end.
Proof. intros. apply table_unnamed; assumption. Qed.
Print Assumptions C42_unnamed_table_partial.

(** A long name that no witness has. *)
Lemma unused_name : forall l : list str, exists s, s <> [] /\ ~ In s l.
Proof.
  intros l. assert (B : forall x, In x l -> length x <= list_max (map (@length N) l)).
  { intros x I. assert (K := proj1 (list_max_le (map (@length N) l) _) (le_n _)). rewrite Forall_forall in K. apply K. apply (in_map (@length N)). exact I. }
  exists (repeat 0%N (S (list_max (map (@length N) l)))). split; [discriminate|]. intros I. apply B in I. rewrite repeat_length in I. lia.
Qed.

(** In particular nothing is shown of an unnamed witness that comes first, whatever its words. *)
Theorem C42_first_refuted : forall cc topo ratio w post o t, by_shape topo -> topo_ok topo ->
  w_sigil w = [] -> NoDup (map w_sigil (w :: post)) ->
  o_near o = false -> o_output o = lit "table" ->
  collate cc topo ratio (w :: post) o = Ok (OTable t) ->
  exists r rows, t_rows t = r :: rows /\ forall x, In x (r_cells r) -> x = None.
Proof.
  intros cc topo ratio w post o t BS TO W0 ND Hn T H.
  destruct (unused_name (map w_sigil (w :: post))) as [s [S0 SN]].
  pose proof (C42_unnamed_table_partial cc topo ratio [] w post s o BS TO W0 ND S0 SN Hn T) as K. cbn [app] in K. rewrite H in K.
  destruct (collate cc topo ratio (under s w :: post) o) as [[| | | | |t0| | |]|e] eqn:C0; try contradiction; [|discriminate].
  destruct K as [t' [E1 [_ [L U]]]]. injection E1 as <-.
  destruct (collate_table_inv cc topo ratio (w :: post) o t H) as [g [rk [_ CT]]]. unfold construct_table in CT. apply bind_ok in CT as [cols [_ CT]].
  injection CT as <-. cbn [map t_rows] in *. eexists. eexists. split; [reflexivity|]. intros x I.
  destruct (t_rows t0) as [|r0 rs0] eqn:R0; [discriminate|].
  destruct (U 0 r0 _ eq_refl eq_refl) as [LC U0]. apply In_nth_error in I as [i I].
  destruct (nth_error (r_cells r0) i) as [x0|] eqn:X0.
  - specialize (U0 i x0 x X0 I). cbn [length Nat.eqb] in U0. destruct U0 as [U0|[_ [l [j [r2 [l2 [_ [J _]]]]]]]]; [exact U0|inversion J].
  - apply nth_error_None in X0. assert (i < length (r_cells r0)) by (rewrite <- LC; apply nth_error_Some; congruence). lia.
Qed.
Print Assumptions C42_first_refuted.

(** Such collations give tables, and an unnamed witness that comes later keeps some words and loses others. *)
Example C42_unnamed_example : exists t t',
  collate ascii_cc kahn sample_ratio [words "A" ["a"; "b"]; words "" ["a"; "x"]; words "C" ["x"; "b"]] (plain_options "table") = Ok (OTable t') /\
  collate ascii_cc kahn sample_ratio [words "A" ["a"; "b"]; under (lit "B") (words "" ["a"; "x"]); words "C" ["x"; "b"]] (plain_options "table") = Ok (OTable t) /\
  readings t = [[[lit "a"]; []; [lit "b"]]; [[lit "a"]; [lit "x"]; []]; [[]; [lit "x"]; [lit "b"]]] /\
  readings t' = [[[lit "a"]; []; [lit "b"]]; [[lit "a"]; []; []]; [[]; [lit "x"]; [lit "b"]]].
Proof. eexists. eexists. split; [vm_compute; reflexivity|]. split; [vm_compute; reflexivity|]. split; vm_compute; reflexivity. Qed.

(** The same with joined words, as collate does unless told otherwise. *)
Example C42_unnamed_joined_example : exists t t',
  collate ascii_cc kahn sample_ratio [words "A" ["a"; "b"; "c"]; words "" ["a"; "b"; "x"; "y"]; words "C" ["x"; "y"; "c"]] (seg_options "table") = Ok (OTable t') /\
  collate ascii_cc kahn sample_ratio [words "A" ["a"; "b"; "c"]; under (lit "B") (words "" ["a"; "b"; "x"; "y"]); words "C" ["x"; "y"; "c"]] (seg_options "table") = Ok (OTable t) /\
  readings t = [[[lit "a"; lit "b"]; [lit "c"]; []]; [[lit "a"; lit "b"]; [lit "x"; lit "y"]; []]; [[]; [lit "x"; lit "y"]; [lit "c"]]] /\
  readings t' = [[[lit "a"; lit "b"]; [lit "c"]; []]; [[lit "a"; lit "b"]; []; []]; [[]; [lit "x"; lit "y"]; [lit "c"]]].
Proof. eexists. eexists. split; [vm_compute; reflexivity|]. split; [vm_compute; reflexivity|]. split; vm_compute; reflexivity. Qed.
