(** The collation of two witnesses (C60), omissions and additions (C61). *)
From Verif Require Import Py TokenModel SuffixModel IndexModel GraphModel AlignModel TableModel NearModel ExportModel
  CollateModel Lib GraphSpec TableSpec CollateSpec Samples TopoProof PairSpec ChosenSpec PairProof.
From Coq Require Import QArith Sorted.
Open Scope list_scope.
Open Scope nat_scope.

(** ** C60: the table of two witnesses.
    There are pairs of positions with equal readings, going upwards in both witnesses, such
    that the table has a column for each pair, which is not variant, and between the pairs
    the remaining tokens stand side by side from the left, in variant columns.  Without a
    property filter, and where no two neighbouring tokens of the second witness have the same
    reading, no other way of pairing has a better balance of the two kinds of columns.  Which
    pairs are chosen is said by [chosen_pairs] (C106). *)
Theorem C60_two_witnesses : forall cc topo ratio w1 w2 o t, topo_ok topo -> good_sigla [w1; w2] ->
  o_segmentation o = false -> o_near o = false -> collate cc topo ratio [w1; w2] o = Ok (OTable t) ->
  exists P, agreeing (readings w1) (readings w2) P /\
    (let C := layout 0 0 (length (w_toks w1)) (length (w_toks w2)) P in
     (exists c1 c2, t_rows t = [{| r_header := w_sigil w1; r_cells := c1 |}; {| r_header := w_sigil w2; r_cells := c2 |}] /\
       Forall2 (shows w1) (map fst C) c1 /\ Forall2 (shows w2) (map snd C) c2) /\
     Forall2 (fun c col => c_variant col = false <-> exists x y, c = (Some x, Some y) /\ In (x, y) P) C (t_columns t)) /\
    table_score t = balance (length (w_toks w1)) (length (w_toks w2)) P /\
    (o_filter o = None -> no_doublets (readings w2) -> forall P', agreeing (readings w1) (readings w2) P' ->
      (balance (length (w_toks w1)) (length (w_toks w2)) P' <= table_score t)%Z) /\
    (o_filter o = None -> P = chosen_pairs (readings w1) (readings w2)).
Proof.
  intros cc topo ratio w1 w2 o t TO G Hs Hn H. destruct (two_witnesses cc topo ratio TO w1 w2 o t G Hs Hn H) as [P [A [B [C [D [_ E]]]]]].
  exists P. split; [exact A|]. split; [exact B|]. split; [exact C|]. split; [exact D|exact E].
Qed.
Print Assumptions C60_two_witnesses.

(** Exchanging the two witnesses gives an equally good table. *)
Theorem C60_exchange : forall cc topo ratio w1 w2 o t t', topo_ok topo -> good_sigla [w1; w2] ->
  o_segmentation o = false -> o_near o = false -> o_filter o = None ->
  no_doublets (readings w1) -> no_doublets (readings w2) ->
  collate cc topo ratio [w1; w2] o = Ok (OTable t) -> collate cc topo ratio [w2; w1] o = Ok (OTable t') -> table_score t = table_score t'.
Proof. intros. eapply two_symmetric; eassumption. Qed.
Print Assumptions C60_exchange.

(** Where neighbouring tokens of the second witness are equal a better table may exist. *)
Theorem C60_doublets_refuted : exists w1 w2 t P', good_sigla [w1; w2] /\
  collate ascii_cc kahn sample_ratio [w1; w2] (plain_options "table") = Ok (OTable t) /\
  agreeing (readings w1) (readings w2) P' /\ (table_score t < balance (length (w_toks w1)) (length (w_toks w2)) P')%Z.
Proof.
  exists (words "A" ["a"; "x"; "y"]), (words "B" ["x"; "y"; "a"; "a"; "a"; "a"]).
  destruct (collate ascii_cc kahn sample_ratio [words "A" ["a"; "x"; "y"]; words "B" ["x"; "y"; "a"; "a"; "a"; "a"]] (plain_options "table")) as [x|] eqn:E; [|exfalso; vm_compute in E; discriminate].
  vm_compute in E. injection E as <-. eexists. exists [(1, 0); (2, 1)].
  split; [split; [repeat constructor; cbn; intuition discriminate|cbn; intuition discriminate]|]. split; [reflexivity|]. split.
  - split; [repeat constructor|]. intros i j [H|[H|[]]]; injection H as <- <-; eexists; split; reflexivity.
  - vm_compute. reflexivity.
Qed.
Print Assumptions C60_doublets_refuted.

(** And the two orders may then differ in quality. *)
Theorem C60_exchange_refuted : exists w1 w2 t t', good_sigla [w1; w2] /\
  collate ascii_cc kahn sample_ratio [w1; w2] (plain_options "table") = Ok (OTable t) /\
  collate ascii_cc kahn sample_ratio [w2; w1] (plain_options "table") = Ok (OTable t') /\ table_score t <> table_score t'.
Proof.
  exists (words "A" ["a"; "x"; "y"]), (words "B" ["x"; "y"; "a"; "a"; "a"; "a"]).
  destruct (collate ascii_cc kahn sample_ratio [words "A" ["a"; "x"; "y"]; words "B" ["x"; "y"; "a"; "a"; "a"; "a"]] (plain_options "table")) as [x|] eqn:E; [|exfalso; vm_compute in E; discriminate].
  destruct (collate ascii_cc kahn sample_ratio [words "B" ["x"; "y"; "a"; "a"; "a"; "a"]; words "A" ["a"; "x"; "y"]] (plain_options "table")) as [x'|] eqn:E'; [|exfalso; vm_compute in E'; discriminate].
  vm_compute in E. injection E as <-. vm_compute in E'. injection E' as <-. do 2 eexists.
  split; [split; [repeat constructor; cbn; intuition discriminate|cbn; intuition discriminate]|]. split; [reflexivity|]. split; [reflexivity|]. vm_compute. discriminate.
Qed.
Print Assumptions C60_exchange_refuted.

(** The hypotheses are met by witnesses with substitutions, an omission and an addition. *)
Definition left_text : witness := words "A" ["the"; "black"; "cat"; "sat"; "on"; "a"; "mat"].
Definition right_text : witness := words "B" ["the"; "cat"; "slept"; "soundly"; "on"; "the"; "mat"].
Lemma no_doublets_dec : forall a, (forall k, k < length a -> nth_error a k <> nth_error a (S k)) -> no_doublets a.
Proof. intros a H i s A B. apply (H i); [apply nth_error_Some; congruence|congruence]. Qed.
Example C60_example : exists t, good_sigla [left_text; right_text] /\ no_doublets (readings left_text) /\ no_doublets (readings right_text) /\
  collate ascii_cc kahn sample_ratio [left_text; right_text] (plain_options "table") = Ok (OTable t) /\
  map (fun ro => map (option_map (map tk_str)) (r_cells ro)) (t_rows t) =
    [map (option_map (fun s => [lit s])) [Some "the"; Some "black"; Some "cat"; Some "sat"; None; Some "on"; Some "a"; Some "mat"];
     map (option_map (fun s => [lit s])) [Some "the"; None; Some "cat"; Some "slept"; Some "soundly"; Some "on"; Some "the"; Some "mat"]] /\
  map c_variant (t_columns t) = [false; true; false; true; true; false; true; false] /\ table_score t = 0%Z.
Proof.
  destruct (collate ascii_cc kahn sample_ratio [left_text; right_text] (plain_options "table")) as [x|] eqn:E; [|exfalso; vm_compute in E; discriminate].
  vm_compute in E. injection E as <-. eexists. split; [split; [repeat constructor; cbn; intuition discriminate|cbn; intuition discriminate]|].
  split; [apply no_doublets_dec; intros k L; cbn in L; do 7 (destruct k as [|k]; [cbn; discriminate|]); lia|].
  split; [apply no_doublets_dec; intros k L; cbn in L; do 7 (destruct k as [|k]; [cbn; discriminate|]); lia|].
  split; [reflexivity|]. split; [reflexivity|]. split; reflexivity.
Qed.

(** ** C61: omissions and additions.
    If the second witness is the first with some tokens left out, the table says so: every
    token of the second stands beside its equal in the first.  If the second is the first
    with tokens added, the same holds where no two neighbouring tokens of the second have
    the same reading. *)
Theorem C61_omissions : forall cc topo ratio w1 w2 o t, topo_ok topo -> good_sigla [w1; w2] ->
  o_segmentation o = false -> o_near o = false -> o_filter o = None ->
  subsequence (readings w2) (readings w1) -> collate cc topo ratio [w1; w2] o = Ok (OTable t) ->
  exists r1 r2, t_rows t = [r1; r2] /\ r_header r1 = w_sigil w1 /\ r_header r2 = w_sigil w2 /\
    length (t_columns t) = length (w_toks w1) /\ only_omissions t r1 r2.
Proof.
  intros cc topo ratio w1 w2 o t TO G Hs Hn Hf SUB H.
  destruct (two_omissions cc topo ratio TO w1 w2 o t G Hs Hn Hf H) as [r1 [r2 [A [B [C [D _]]]]]]. exists r1, r2. destruct (D SUB). auto.
Qed.
Print Assumptions C61_omissions.

Theorem C61_additions : forall cc topo ratio w1 w2 o t, topo_ok topo -> good_sigla [w1; w2] ->
  o_segmentation o = false -> o_near o = false -> o_filter o = None ->
  subsequence (readings w1) (readings w2) -> no_doublets (readings w2) -> collate cc topo ratio [w1; w2] o = Ok (OTable t) ->
  exists r1 r2, t_rows t = [r1; r2] /\ r_header r1 = w_sigil w1 /\ r_header r2 = w_sigil w2 /\
    length (t_columns t) = length (w_toks w2) /\ only_omissions t r2 r1.
Proof.
  intros cc topo ratio w1 w2 o t TO G Hs Hn Hf SUB ND H.
  destruct (two_omissions cc topo ratio TO w1 w2 o t G Hs Hn Hf H) as [r1 [r2 [A [B [C [_ D]]]]]]. exists r1, r2. destruct (D SUB ND). auto.
Qed.
Print Assumptions C61_additions.

(** With equal neighbours an addition may be taken for an omission and an addition. *)
Theorem C61_additions_refuted : exists w1 w2 t, good_sigla [w1; w2] /\ subsequence (readings w1) (readings w2) /\
  collate ascii_cc kahn sample_ratio [w1; w2] (plain_options "table") = Ok (OTable t) /\
  exists r1 r2, t_rows t = [r1; r2] /\ ~ only_omissions t r2 r1.
Proof.
  exists (words "A" ["x"; "a"]), (words "B" ["x"; "a"; "x"; "x"; "x"; "x"; "x"]).
  destruct (collate ascii_cc kahn sample_ratio [words "A" ["x"; "a"]; words "B" ["x"; "a"; "x"; "x"; "x"; "x"; "x"]] (plain_options "table")) as [x|] eqn:E; [|exfalso; vm_compute in E; discriminate].
  vm_compute in E. injection E as <-. eexists.
  split; [split; [repeat constructor; cbn; intuition discriminate|cbn; intuition discriminate]|]. split; [cbn; repeat constructor|]. split; [reflexivity|].
  do 2 eexists. split; [reflexivity|]. intros H. destruct (H 7 _ eq_refl) as [ts [A _]]. vm_compute in A. discriminate.
Qed.
Print Assumptions C61_additions_refuted.

Definition short_text : witness := words "B" ["the"; "cat"; "cat"; "mat"].
Definition long_text : witness := words "A" ["the"; "black"; "cat"; "and"; "cat"; "sat"; "on"; "the"; "mat"].
Example C61_example : subsequence (readings short_text) (readings long_text) /\ good_sigla [long_text; short_text] /\
  exists t, collate ascii_cc kahn sample_ratio [long_text; short_text] (plain_options "table") = Ok (OTable t) /\
    map c_variant (t_columns t) = [false; true; false; true; false; true; true; true; false].
Proof.
  split; [cbn; repeat constructor|]. split; [split; [repeat constructor; cbn; intuition discriminate|cbn; intuition discriminate]|].
  destruct (collate ascii_cc kahn sample_ratio [long_text; short_text] (plain_options "table")) as [x|] eqn:E; [|exfalso; vm_compute in E; discriminate].
  vm_compute in E. injection E as <-. eexists. split; reflexivity.
Qed.
