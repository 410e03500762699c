(** Near matching moves nothing past a word that all witnesses share (C109). *)
From Verif Require Import Py TokenModel SuffixModel IndexModel GraphModel TableModel NearModel ExportModel CollateModel Lib GraphSpec RankProof TableSpec CollateSpec
  CollateProof ResultProof NearProof NearSideSpec NearSideProof NearKeepProof NearRowSpec Props_nearrows TopoProof Samples.
From Coq Require Import QArith.
Open Scope list_scope.
Open Scope nat_scope.

(** ** C109: near matching and the words all witnesses share, for any number of witnesses and any similarity.
    A column of the table without near matching in which all witnesses have the same reading is the same column, at the
    same place, with near matching.  Whatever near matching shows in a row, the table without it shows in the same row,
    on the same side of each of these columns; and where that table shows something between two of them, the
    table with near matching shows something between them too. *)
Theorem C109_shared_column : forall cc topo ratio c o t0 t, topo_ok topo -> good_sigla c -> o_segmentation o = false ->
  collate cc topo ratio c (set_near o false) = Ok (OTable t0) -> collate cc topo ratio c (set_near o true) = Ok (OTable t) ->
  forall x, shared t0 x -> shared t x /\ nth_error (t_columns t) x = nth_error (t_columns t0) x.
Proof.
  intros cc topo ratio c o t0 t TO G Hs H0 H1 x [col [N V]]. destruct (near_sides cc topo ratio TO c o t0 t G Hs H0 H1) as [A _].
  specialize (A x col N V). split; [exists col; auto|congruence].
Qed.
Print Assumptions C109_shared_column.

Theorem C109_same_side : forall cc topo ratio c o t0 t, topo_ok topo -> good_sigla c -> o_segmentation o = false ->
  collate cc topo ratio c (set_near o false) = Ok (OTable t0) -> collate cc topo ratio c (set_near o true) = Ok (OTable t) ->
  (forall i y ts, shown t i y ts -> exists z, shown t0 i z ts /\ same_sides t0 y z) /\
  (forall i z ts, shown t0 i z ts -> exists y ts', shown t i y ts' /\ same_sides t0 y z).
Proof.
  intros cc topo ratio c o t0 t TO G Hs H0 H1. destruct (near_sides cc topo ratio TO c o t0 t G Hs H0 H1) as [_ [A B]]. split.
  - intros i y ts [ro [R C]]. destruct (A i ro y ts R C) as [ro0 [z [R0 [C0 S]]]]. exists z. split; [exists ro0; auto|exact S].
  - intros i z ts [ro [R C]]. destruct (B i ro z ts R C) as [ro1 [y [ts' [R1 [C1 S]]]]]. exists y, ts'. split; [exists ro1; auto|exact S].
Qed.
Print Assumptions C109_same_side.

(** A column between two shared ones (or between one and the edge of the table) shows the same in all rows. *)
Theorem C109_fenced : forall cc topo ratio c o t0 t, topo_ok topo -> good_sigla c -> o_segmentation o = false -> o_output o = lit "table" ->
  collate cc topo ratio c (set_near o false) = Ok (OTable t0) -> collate cc topo ratio c (set_near o true) = Ok (OTable t) ->
  forall y, fenced t0 y -> forall i ts, shown t i y ts <-> shown t0 i y ts.
Proof.
  intros cc topo ratio c o t0 t TO G Hs Ho H0 H1 y [Y [F1 F2]] i ts.
  destruct (C109_same_side cc topo ratio c o t0 t TO G Hs H0 H1) as [A B].
  destruct (near_columns cc topo ratio TO c o t0 G Hs Ho H0) as [t' [E LC]]. rewrite H1 in E. injection E as <-.
  assert (BD : forall o' t' i z ts, collate cc topo ratio c o' = Ok (OTable t') -> shown t' i z ts -> z < length (t_columns t')).
  { intros o' t' i' z ts' H [ro [R C]]. pose proof G as [ND NG]. destruct (table_shape cc topo ratio TO c o' t' ND NG H) as [_ [T2 _]].
    destruct (T2 ro (nth_error_In _ _ R)) as [L _]. rewrite <- L. apply nth_error_Some. rewrite C. discriminate. }
  assert (EQ : forall z, z < length (t_columns t0) -> same_sides t0 z y -> z = y).
  { intros z Z S. assert (L1 : ~ z < y).
    { intros C. destruct F1 as [->|F1]; [lia|]. destruct (S _ F1) as [S1 S2]. lia. }
    assert (L2 : ~ y < z).
    { intros C. destruct F2 as [F2|F2]; [lia|]. destruct (S _ F2) as [S1 S2]. lia. }
    lia. }
  assert (SY : forall a b, same_sides t0 a b -> same_sides t0 b a).
  { intros a b S x Hx. destruct (S x Hx) as [S1 S2]. split; symmetry; assumption. }
  assert (FW : forall i ts, shown t i y ts -> shown t0 i y ts).
  { intros j us S. destruct (A j y us S) as [z [S0 SS]]. replace y with z; [exact S0|]. apply EQ; [apply (BD _ _ _ _ _ H0 S0)|apply SY; exact SS]. }
  split; [apply FW|]. intros S. destruct (B i y ts S) as [z [us [S1 SS]]].
  assert (z = y) by (apply EQ; [rewrite <- LC; apply (BD _ _ _ _ _ H1 S1)|exact SS]). subst z.
  pose proof (FW i us S1) as S2. destruct S as [ro [R C]]. destruct S2 as [ro' [R' C']]. congruence.
Qed.
Print Assumptions C109_fenced.

(** A witness that has at most one word between any two neighbouring shared columns keeps all its words, in their order:
    its row shows its text, as without near matching.  So near matching can lose or exchange (C21) only words
    of a witness that follow one another without a word all witnesses share between them. *)
Theorem C109_row_kept : forall cc topo ratio c o t0 t, topo_ok topo -> good_sigla c -> o_segmentation o = false ->
  collate cc topo ratio c (set_near o false) = Ok (OTable t0) -> collate cc topo ratio c (set_near o true) = Ok (OTable t) ->
  forall i w ro0 ro, nth_error c i = Some w -> nth_error (t_rows t0) i = Some ro0 -> nth_error (t_rows t) i = Some ro ->
  (forall z z' ts ts', shown t0 i z ts -> shown t0 i z' ts' -> same_sides t0 z z' -> z = z') ->
  row_tokens ro = row_tokens ro0 /\ Forall2 (came_from (w_sigil w)) (w_toks w) (row_tokens ro).
Proof.
  intros cc topo ratio c o t0 t TO G Hs H0 H1 i w ro0 ro EW R0 R1 U.
  destruct (C109_same_side cc topo ratio c o t0 t TO G Hs H0 H1) as [A B].
  assert (E : row_tokens ro = row_tokens ro0).
  { unfold row_tokens. apply (rows_kept t0).
    - intros y ts Y. destruct (A i y ts) as [z [[ro' [R' Z]] S]]; [exists ro; auto|]. exists z. split; [congruence|exact S].
    - intros z ts Z. destruct (B i z ts) as [y [ts' [[ro' [R' Y]] S]]]; [exists ro0; auto|]. exists y, ts'. split; [congruence|exact S].
    - intros z z' ts ts' Z Z' S. apply (U z z' ts ts'); [exists ro0; auto|exists ro0; auto|exact S].
    - intros y ts Y. pose proof G as [ND NG]. destruct (table_shape cc topo ratio TO c _ t ND NG H1) as [_ [T2 _]].
      destruct (T2 ro (nth_error_In _ _ R1)) as [_ T]. apply T. apply nth_error_In in Y. exact Y.
    - pose proof (C21_nothing_twice_partial cc topo ratio c _ t TO G (eq_refl : o_near (set_near o true) = true) H1) as F.
      assert (X : forall C rows i w ro, Forall2 (fun w ro => exists tks cols, shown_row (w_sigil w) (w_toks w) (r_cells ro) tks cols /\
        NoDup (map tk_pos (row_tokens ro)) /\ incl (row_tokens ro) tks /\ (length (row_tokens ro) = length (w_toks w) <-> NoDup cols)) C rows ->
        nth_error C i = Some w -> nth_error rows i = Some ro -> NoDup (map tk_pos (row_tokens ro))).
      { clear. intros C rows i w ro F. revert i. induction F as [|w' ro' C rows [tks [cols [_ [N _]]]] F IH]; intros [|i] E1 E2; try discriminate; [injection E2 as <-; exact N|apply (IH i E1 E2)]. }
      apply (X c (t_rows t) i w ro F EW R1). }
  split; [exact E|]. rewrite E. pose proof G as [ND NG].
  pose proof (rows_lossless cc topo ratio TO c (set_near o false) t0 ND NG eq_refl H0) as F.
  clear - F EW R0. revert i EW R0. induction F as [|w' ro' C rows [_ N] F IH]; intros [|i] E1 E2; try discriminate; [injection E1 as ->; injection E2 as ->; exact N|apply (IH i E1 E2)].
Qed.
Print Assumptions C109_row_kept.

(** Two words change their columns; the shared words and the column between the last two of them stay. *)
Definition fences : collation :=
  [words "A" ["the"; "xx"; "yy"; "cats"; "z"; "one"; "end"]; words "B" ["the"; "cat"; "z"; "two"; "end"]; words "C" ["the"; "cats"; "z"; "end"]].

Example C109_example : good_sigla fences /\ exists t0 t,
  collate ascii_cc kahn sample_ratio fences (set_near (near_options "table") false) = Ok (OTable t0) /\
  collate ascii_cc kahn sample_ratio fences (set_near (near_options "table") true) = Ok (OTable t) /\
  nth_error (readings t0) 1 = Some [[lit "the"]; [lit "cat"]; []; []; [lit "z"]; [lit "two"]; [lit "end"]] /\
  nth_error (readings t) 1 = Some [[lit "the"]; []; []; [lit "cat"]; [lit "z"]; [lit "two"]; [lit "end"]] /\
  shared t0 0 /\ shared t0 4 /\ shared t0 6 /\ fenced t0 5.
Proof.
  split; [split; [repeat constructor; cbn; intuition discriminate|cbn; intuition discriminate]|].
  eexists. eexists. split; [vm_compute; reflexivity|]. split; [vm_compute; reflexivity|]. split; [vm_compute; reflexivity|]. split; [vm_compute; reflexivity|].
  assert (S : forall (P Q R T : Prop), P -> Q -> R -> (Q -> R -> T) -> P /\ Q /\ R /\ T) by tauto.
  apply S; [eexists; split; [vm_compute; reflexivity|reflexivity]| | |].
  - eexists. split; [vm_compute; reflexivity|reflexivity].
  - eexists. split; [vm_compute; reflexivity|reflexivity].
  - intros Q R. split; [cbn; lia|]. split; right; [exact Q|exact R].
Qed.

(** The second witness of the example has one word between two shared ones at most. *)
Example C109_row_example : exists t0, collate ascii_cc kahn sample_ratio fences (set_near (near_options "table") false) = Ok (OTable t0) /\
  forall z z' ts ts', shown t0 1 z ts -> shown t0 1 z' ts' -> same_sides t0 z z' -> z = z'.
Proof.
  eexists. split; [vm_compute; reflexivity|]. intros z z' ts ts' [ro [R Z]] [ro' [R' Z']] S. cbn [t_rows nth_error] in R, R'. injection R as <-. injection R' as <-. cbn [r_cells] in Z, Z'.
  destruct (S 0) as [A0 B0]; [eexists; split; [cbn [t_columns nth_error]; reflexivity|reflexivity]|].
  destruct (S 4) as [A4 B4]; [eexists; split; [cbn [t_columns nth_error]; reflexivity|reflexivity]|].
  destruct (S 6) as [A6 B6]; [eexists; split; [cbn [t_columns nth_error]; reflexivity|reflexivity]|]. clear S.
  destruct z as [|[|[|[|[|[|[|z]]]]]]]; cbn [nth_error] in Z; try discriminate Z; try (destruct z; discriminate Z);
    destruct z' as [|[|[|[|[|[|[|z']]]]]]]; cbn [nth_error] in Z'; try discriminate Z'; try (destruct z'; discriminate Z'); try reflexivity; exfalso; lia.
Qed.
