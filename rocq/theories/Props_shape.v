(** Neighbouring columns of a segmented table (C88), small differences between two witnesses (C89). *)
From Verif Require Import Py TokenModel SuffixModel IndexModel GraphModel AlignModel TableModel NearModel ExportModel
  CollateModel Lib GraphSpec TableSpec CollateSpec Samples TopoProof PairSpec ShapeProof ChangeSpec ChangeProof.
From Coq Require Import QArith.
Open Scope list_scope.
Open Scope nat_scope.

(** ** C88: neighbouring columns.
    With segmentation two neighbouring columns never both have all the witnesses in
    agreement: they would have been one segment. *)
Theorem C88_no_two_agreements : forall cc topo ratio c o t, topo_ok topo -> good_sigla c ->
  o_segmentation o = true -> o_near o = false -> collate cc topo ratio c o = Ok (OTable t) ->
  forall i a b, nth_error (t_columns t) i = Some a -> nth_error (t_columns t) (S i) = Some b -> c_variant a = true \/ c_variant b = true.
Proof. intros cc topo ratio c o t TO. apply (no_two_invariant cc topo ratio TO). Qed.
Print Assumptions C88_no_two_agreements.

(** With two witnesses agreement and variation alternate. *)
Theorem C88_alternate : forall cc topo ratio w1 w2 o t, topo_ok topo -> good_sigla [w1; w2] ->
  o_segmentation o = true -> o_near o = false -> collate cc topo ratio [w1; w2] o = Ok (OTable t) ->
  forall i a b, nth_error (t_columns t) i = Some a -> nth_error (t_columns t) (S i) = Some b -> c_variant a = negb (c_variant b).
Proof. intros cc topo ratio w1 w2 o t TO. apply (two_alternate cc topo ratio TO). Qed.
Print Assumptions C88_alternate.

(** So the numbers of the two kinds of columns differ by one at most. *)
Theorem C88_as_many : forall cc topo ratio w1 w2 o t, topo_ok topo -> good_sigla [w1; w2] ->
  o_segmentation o = true -> o_near o = false -> collate cc topo ratio [w1; w2] o = Ok (OTable t) ->
  length (filter c_variant (t_columns t)) <= S (length (filter (fun col => negb (c_variant col)) (t_columns t))) /\
  length (filter (fun col => negb (c_variant col)) (t_columns t)) <= S (length (filter c_variant (t_columns t))).
Proof.
  intros cc topo ratio w1 w2 o t TO G Hs Hn H.
  destruct (alternating_count (map c_variant (t_columns t))) as [A B].
  - intros i a b X Y. rewrite nth_error_map in X, Y.
    destruct (nth_error (t_columns t) i) as [x|] eqn:Ex; [|discriminate X]. destruct (nth_error (t_columns t) (S i)) as [y|] eqn:Ey; [|discriminate Y].
    cbn in X, Y. injection X as <-. injection Y as <-. apply (C88_alternate cc topo ratio w1 w2 o t TO G Hs Hn H i x y Ex Ey).
  - assert (C : forall (f : bool -> bool) l, length (filter f (map c_variant l)) = length (filter (fun col => f (c_variant col)) l)).
    { intros f l. induction l as [|x l IH]; [reflexivity|]. cbn [map filter]. destruct (f (c_variant x)); cbn [length]; congruence. }
    rewrite !C in A, B. split; assumption.
Qed.
Print Assumptions C88_as_many.

(** With three witnesses two neighbouring columns may both have variation. *)
Theorem C88_three_refuted : exists c t i a b, good_sigla c /\ length c = 3 /\
  collate ascii_cc kahn sample_ratio c (seg_options "table") = Ok (OTable t) /\
  nth_error (t_columns t) i = Some a /\ nth_error (t_columns t) (S i) = Some b /\ c_variant a = c_variant b.
Proof.
  exists three_witnesses. destruct (collate ascii_cc kahn sample_ratio three_witnesses (seg_options "table")) as [x|] eqn:E; [|exfalso; vm_compute in E; discriminate E].
  vm_compute in E. injection E as <-. eexists. exists 0. do 2 eexists.
  split; [split; [repeat constructor; cbn; intuition discriminate|cbn; intuition discriminate]|]. split; [reflexivity|]. split; [reflexivity|]. split; [reflexivity|]. split; reflexivity.
Qed.
Print Assumptions C88_three_refuted.

Definition draft : witness := words "A" ["the"; "black"; "cat"; "sat"; "on"; "a"; "mat"].
Definition fair_copy : witness := words "B" ["the"; "cat"; "slept"; "soundly"; "on"; "a"; "mat"].
Example C88_example : exists t, good_sigla [draft; fair_copy] /\
  collate ascii_cc kahn sample_ratio [draft; fair_copy] (seg_options "table") = Ok (OTable t) /\
  map c_variant (t_columns t) = [false; true; false; true; false].
Proof.
  destruct (collate ascii_cc kahn sample_ratio [draft; fair_copy] (seg_options "table")) as [x|] eqn:E; [|exfalso; vm_compute in E; discriminate E].
  vm_compute in E. injection E as <-. eexists. split; [split; [repeat constructor; cbn; intuition discriminate|cbn; intuition discriminate]|]. split; reflexivity.
Qed.

(** ** C89: small differences.
    If the second witness is the first with one word replaced, and no two neighbouring words
    of the second are equal, the table has a column for each word, both witnesses stand in
    every column, and the column of the replaced word is the only one with variation. *)
Theorem C89_one_replaced : forall cc topo ratio w1 w2 o t p x y s, topo_ok topo -> good_sigla [w1; w2] ->
  o_segmentation o = false -> o_near o = false -> o_filter o = None -> no_doublets (readings w2) ->
  readings w1 = p ++ x :: s -> readings w2 = p ++ y :: s -> x <> y -> collate cc topo ratio [w1; w2] o = Ok (OTable t) ->
  length (t_columns t) = length (w_toks w1) /\
  (forall k col, nth_error (t_columns t) k = Some col -> (c_variant col = true <-> k = length p)) /\
  exists c1 c2, t_rows t = [{| r_header := w_sigil w1; r_cells := c1 |}; {| r_header := w_sigil w2; r_cells := c2 |}] /\
    Forall2 (shows w1) (map Some (seq 0 (length (w_toks w1)))) c1 /\ Forall2 (shows w2) (map Some (seq 0 (length (w_toks w2)))) c2.
Proof. intros cc topo ratio w1 w2 o t p x y s TO. apply (one_change cc topo ratio TO). Qed.
Print Assumptions C89_one_replaced.

(** If [k] words are replaced, left out or put in, the table has at most two columns with
    variation for each of them. *)
Theorem C89_edits : forall cc topo ratio w1 w2 o t k, topo_ok topo -> good_sigla [w1; w2] ->
  o_segmentation o = false -> o_near o = false -> o_filter o = None -> no_doublets (readings w2) ->
  edits (readings w1) (readings w2) k -> collate cc topo ratio [w1; w2] o = Ok (OTable t) ->
  length (filter c_variant (t_columns t)) <= 2 * k.
Proof. intros cc topo ratio w1 w2 o t k TO. apply (few_edits cc topo ratio TO). Qed.
Print Assumptions C89_edits.

(** With equal neighbours one replaced word may give two columns with variation. *)
Theorem C89_doublets_refuted : exists w1 w2 p x y s t, good_sigla [w1; w2] /\ readings w1 = p ++ x :: s /\ readings w2 = p ++ y :: s /\ x <> y /\
  collate ascii_cc kahn sample_ratio [w1; w2] (plain_options "table") = Ok (OTable t) /\ length (filter c_variant (t_columns t)) = 2.
Proof.
  exists (words "A" ["a"; "b"]), (words "B" ["a"; "a"]), [lit "a"], (lit "b"), (lit "a"), [].
  destruct (collate ascii_cc kahn sample_ratio [words "A" ["a"; "b"]; words "B" ["a"; "a"]] (plain_options "table")) as [x|] eqn:E; [|exfalso; vm_compute in E; discriminate E].
  vm_compute in E. injection E as <-. eexists. split; [split; [repeat constructor; cbn; intuition discriminate|cbn; intuition discriminate]|].
  split; [reflexivity|]. split; [reflexivity|]. split; [discriminate|]. split; reflexivity.
Qed.
Print Assumptions C89_doublets_refuted.

Definition revised : witness := words "B" ["the"; "black"; "cat"; "slept"; "on"; "a"; "mat"].
Lemma no_doublets_if : forall a, (forall k, k < length a -> nth_error a k <> nth_error a (S k)) -> no_doublets a.
Proof. intros a H i s A B. apply (H i); [apply nth_error_Some; congruence|congruence]. Qed.
Example C89_example : exists t, good_sigla [draft; revised] /\ no_doublets (readings revised) /\
  readings draft = map lit ["the"; "black"; "cat"] ++ lit "sat" :: map lit ["on"; "a"; "mat"] /\
  readings revised = map lit ["the"; "black"; "cat"] ++ lit "slept" :: map lit ["on"; "a"; "mat"] /\
  edits (readings draft) (readings revised) 1 /\ edits (readings draft) (readings fair_copy) 3 /\
  collate ascii_cc kahn sample_ratio [draft; revised] (plain_options "table") = Ok (OTable t) /\
  map c_variant (t_columns t) = [false; false; false; true; false; false; false].
Proof.
  destruct (collate ascii_cc kahn sample_ratio [draft; revised] (plain_options "table")) as [x|] eqn:E; [|exfalso; vm_compute in E; discriminate E].
  vm_compute in E. injection E as <-. eexists. split; [split; [repeat constructor; cbn; intuition discriminate|cbn; intuition discriminate]|].
  split; [apply no_doublets_if; intros k L; cbn in L; do 7 (destruct k as [|k]; [cbn; discriminate|]); lia|].
  split; [reflexivity|]. split; [reflexivity|]. split; [cbn; do 3 constructor; apply ed_replace; repeat constructor|].
  split; [cbn; apply ed_same; apply ed_omit; apply ed_same; apply ed_replace; apply ed_add; repeat constructor|]. split; reflexivity.
Qed.
