(** A common passage cuts the collation of two witnesses in two (C111). *)
From Verif Require Import Py TokenModel SuffixModel IndexModel GraphModel AlignModel TableModel NearModel ExportModel
  CollateModel Lib GraphSpec TableSpec CollateSpec Samples TopoProof PairSpec ChosenSpec CommonSpec PairProof Props_pair PassageProof SplitSpec SplitProof.
From Coq Require Import QArith Sorted.
Open Scope list_scope.
Open Scope nat_scope.

(** ** C111: the pairs of two texts (C106) that share a passage, as in C110 or at the beginning or end of both, are the
    pairs of what stands before the passage, the words of the passage, and the pairs of what stands after it. *)
Theorem C111_pairs : forall X1 X2 u Y1 Y2,
  (forall s, In s u -> unrepeated s (X1 ++ u ++ Y1)) -> (forall s, In s u -> unrepeated s (X2 ++ u ++ Y2)) -> no_doublets (X2 ++ u ++ Y2) ->
  long_or_outer X1 X2 u Y1 Y2 ->
  chosen_pairs (X1 ++ u ++ Y1) (X2 ++ u ++ Y2) =
    chosen_pairs X1 X2 ++ map (fun i => (length X1 + i, length X2 + i)) (seq 0 (length u)) ++
    map (further (length X1 + length u) (length X2 + length u)) (chosen_pairs Y1 Y2).
Proof. exact split_pairs. Qed.
Print Assumptions C111_pairs.

(** In terms of columns: *)
Lemma split_columns : forall cc topo ratio w1 w2 X1 X2 u Y1 Y2 o t, topo_ok topo -> good_sigla [w1; w2] ->
  o_segmentation o = false -> o_near o = false -> o_filter o = None -> u <> [] ->
  PairSpec.readings w1 = X1 ++ u ++ Y1 -> PairSpec.readings w2 = X2 ++ u ++ Y2 ->
  (forall s, In s u -> unrepeated s (PairSpec.readings w1)) -> (forall s, In s u -> unrepeated s (PairSpec.readings w2)) -> no_doublets (PairSpec.readings w2) ->
  long_or_outer X1 X2 u Y1 Y2 -> collate cc topo ratio [w1; w2] o = Ok (OTable t) ->
  let CX := layout 0 0 (length X1) (length X2) (chosen_pairs X1 X2) in
  let CY := layout 0 0 (length Y1) (length Y2) (chosen_pairs Y1 Y2) in
  (forall i j, In (i, j) (chosen_pairs X1 X2) -> i < length X1) ->
  (forall i, In (Some i) (map fst CX) -> i < length X1) -> (forall i, In (Some i) (map snd CX) -> i < length X2) ->
  variants t = map (fun c => negb (paired (chosen_pairs X1 X2) c)) CX ++ map (fun _ => false) u ++ map (fun c => negb (paired (chosen_pairs Y1 Y2) c)) CY /\
  rows_read t = [map (reading_at X1) (map fst CX) ++ map (fun s => Some [s]) u ++ map (reading_at Y1) (map fst CY);
                 map (reading_at X2) (map snd CX) ++ map (fun s => Some [s]) u ++ map (reading_at Y2) (map snd CY)].
Proof.
  intros cc topo ratio w1 w2 X1 X2 u Y1 Y2 o t TO G Hs Hn Hf NU R1 R2 U1 U2 ND LN H CX CY LP BX1 BX2.
  destruct (C60_two_witnesses cc topo ratio w1 w2 o t TO G Hs Hn H) as [P [AG [[[c1 [c2 [TR [F1 F2]]]] FC] [_ [_ EP]]]]]. specialize (EP Hf).
  rewrite R1, R2 in EP. rewrite C111_pairs in EP by (rewrite <- ?R1, <- ?R2; assumption).
  assert (LR : forall w, length (w_toks w) = length (PairSpec.readings w)) by (intros w; unfold PairSpec.readings; rewrite map_length; reflexivity).
  assert (LU : 1 <= length u) by (destruct u; [congruence|cbn; lia]).
  rewrite !LR in *. assert (CE : layout 0 0 (length (PairSpec.readings w1)) (length (PairSpec.readings w2)) P =
    CX ++ map (fun i => (Some (length X1 + i), Some (length X2 + i))) (seq 0 (length u)) ++ map (moved_by (length X1 + length u) (length X2 + length u)) CY).
  { rewrite EP, R1, R2, !app_length, !Nat.add_assoc. apply split_layout. exact LU. }
  rewrite CE in *. apply shown_reading in F1 as [F1 _]. apply shown_reading in F2 as [F2 _].
  split.
  - unfold variants. rewrite (variant_list _ _ _ FC). rewrite !map_app.
    assert (LP' : forall p, In p (chosen_pairs X1 X2) -> fst p < length X1) by (intros [i j] Hp; exact (LP i j Hp)).
    f_equal; [|f_equal].
    + apply map_ext_in. intros c Hc. f_equal. rewrite EP. destruct (paired_parts _ _ (length X2) (length u) (chosen_pairs Y1 Y2) None None LP') as [Q _]. apply Q.
      intros i Hi. apply BX1. rewrite <- Hi. apply in_map. exact Hc.
    + rewrite map_map. destruct (paired_parts _ _ (length X2) (length u) (chosen_pairs Y1 Y2) None None LP') as [_ [Q _]].
      rewrite (map_ext_in _ (fun _ => false)) by (intros i Hi; apply in_seq in Hi; rewrite EP, Q by lia; reflexivity).
      clear. generalize 0. induction u as [|s u IH]; intros k; [reflexivity|]. cbn [length seq map]. f_equal. apply IH.
    + rewrite map_map. apply map_ext. intros [a b]. rewrite EP. destruct (paired_parts _ _ (length X2) (length u) (chosen_pairs Y1 Y2) a b LP') as [_ [_ Q]]. f_equal. exact Q.
  - unfold rows_read. rewrite TR. cbn [map r_cells].
    rewrite F1, F2, R1, R2, !map_app.
    rewrite (front_reading X1 (u ++ Y1)), (front_reading X2 (u ++ Y2)) by assumption.
    assert (MF : forall a b l, map fst (map (moved_by a b) l) = map (option_map (Nat.add a)) (map fst l)) by (intros; rewrite !map_map; reflexivity).
    assert (MS : forall a b l, map snd (map (moved_by a b) l) = map (option_map (Nat.add b)) (map snd l)) by (intros; rewrite !map_map; reflexivity).
    rewrite MF, MS, !back_reading. rewrite (map_map _ fst), (map_map _ snd). cbn [fst snd]. rewrite !middle_reading. reflexivity.
Qed.
Lemma whole_columns : forall cc topo ratio x1 x2 o t, topo_ok topo -> good_sigla [x1; x2] -> o_segmentation o = false -> o_near o = false -> o_filter o = None ->
  collate cc topo ratio [x1; x2] o = Ok (OTable t) ->
  let X1 := PairSpec.readings x1 in let X2 := PairSpec.readings x2 in
  let CX := layout 0 0 (length X1) (length X2) (chosen_pairs X1 X2) in
  (forall i j, In (i, j) (chosen_pairs X1 X2) -> i < length X1) /\
  (forall i, In (Some i) (map fst CX) -> i < length X1) /\ (forall i, In (Some i) (map snd CX) -> i < length X2) /\
  variants t = map (fun c => negb (paired (chosen_pairs X1 X2) c)) CX /\ rows_read t = [map (reading_at X1) (map fst CX); map (reading_at X2) (map snd CX)].
Proof.
  intros cc topo ratio x1 x2 o t TO G Hs Hn Hf H X1 X2 CX.
  destruct (C60_two_witnesses cc topo ratio x1 x2 o t TO G Hs Hn H) as [P [AG [[[c1 [c2 [TR [F1 F2]]]] FC] [_ [_ EP]]]]]. specialize (EP Hf).
  assert (LR : forall w, length (w_toks w) = length (PairSpec.readings w)) by (intros w; unfold PairSpec.readings; rewrite map_length; reflexivity).
  rewrite !LR in *. subst P. fold X1 X2 in AG, F1, F2, FC. fold CX in F1, F2, FC.
  apply shown_reading in F1 as [F1 B1]. apply shown_reading in F2 as [F2 B2].
  split; [intros i j Hp; destruct AG as [_ AG]; destruct (AG i j Hp) as [s [S1 _]]; apply nth_error_Some; congruence|].
  split; [exact B1|]. split; [exact B2|]. split; [unfold variants; apply variant_list; exact FC|].
  unfold rows_read. rewrite TR. cbn [map r_cells]. rewrite F1, F2. reflexivity.
Qed.

(** The table is made of the table of what stands before, the columns of the passage, and the table of what stands after. *)
Theorem C111_table : forall cc topo ratio w1 w2 x1 x2 y1 y2 u o t tx ty, topo_ok topo -> good_sigla [w1; w2] -> good_sigla [x1; x2] -> good_sigla [y1; y2] ->
  o_segmentation o = false -> o_near o = false -> o_filter o = None -> u <> [] ->
  PairSpec.readings w1 = PairSpec.readings x1 ++ u ++ PairSpec.readings y1 -> PairSpec.readings w2 = PairSpec.readings x2 ++ u ++ PairSpec.readings y2 ->
  (forall s, In s u -> unrepeated s (PairSpec.readings w1)) -> (forall s, In s u -> unrepeated s (PairSpec.readings w2)) -> no_doublets (PairSpec.readings w2) ->
  long_or_outer (PairSpec.readings x1) (PairSpec.readings x2) u (PairSpec.readings y1) (PairSpec.readings y2) ->
  collate cc topo ratio [w1; w2] o = Ok (OTable t) -> collate cc topo ratio [x1; x2] o = Ok (OTable tx) -> collate cc topo ratio [y1; y2] o = Ok (OTable ty) ->
  variants t = variants tx ++ map (fun _ => false) u ++ variants ty /\
  exists a1 a2 b1 b2, rows_read tx = [a1; a2] /\ rows_read ty = [b1; b2] /\
    rows_read t = [a1 ++ map (fun s => Some [s]) u ++ b1; a2 ++ map (fun s => Some [s]) u ++ b2].
Proof.
  intros cc topo ratio w1 w2 x1 x2 y1 y2 u o t tx ty TO G GX GY Hs Hn Hf NU R1 R2 U1 U2 ND LN H HX HY.
  destruct (whole_columns cc topo ratio x1 x2 o tx TO GX Hs Hn Hf HX) as [A1 [A2 [A3 [A4 A5]]]].
  destruct (whole_columns cc topo ratio y1 y2 o ty TO GY Hs Hn Hf HY) as [_ [_ [_ [B4 B5]]]].
  destruct (split_columns cc topo ratio w1 w2 _ _ u _ _ o t TO G Hs Hn Hf NU R1 R2 U1 U2 ND LN H A1 A2 A3) as [V R].
  rewrite A4, B4. split; [exact V|]. rewrite A5, B5. eexists _, _, _, _. split; [reflexivity|]. split; [reflexivity|]. exact R.
Qed.
Print Assumptions C111_table.

(** A common beginning of any length, even of one word, is set aside, and so is a common ending. *)
Theorem C111_beginning : forall cc topo ratio w1 w2 y1 y2 u o t ty, topo_ok topo -> good_sigla [w1; w2] -> good_sigla [y1; y2] ->
  o_segmentation o = false -> o_near o = false -> o_filter o = None -> u <> [] ->
  PairSpec.readings w1 = u ++ PairSpec.readings y1 -> PairSpec.readings w2 = u ++ PairSpec.readings y2 ->
  (forall s, In s u -> unrepeated s (PairSpec.readings w1)) -> (forall s, In s u -> unrepeated s (PairSpec.readings w2)) -> no_doublets (PairSpec.readings w2) ->
  collate cc topo ratio [w1; w2] o = Ok (OTable t) -> collate cc topo ratio [y1; y2] o = Ok (OTable ty) ->
  variants t = map (fun _ => false) u ++ variants ty /\ rows_read t = map (fun r => map (fun s => Some [s]) u ++ r) (rows_read ty).
Proof.
  intros cc topo ratio w1 w2 y1 y2 u o t ty TO G GY Hs Hn Hf NU R1 R2 U1 U2 ND H HY.
  destruct (whole_columns cc topo ratio y1 y2 o ty TO GY Hs Hn Hf HY) as [_ [_ [_ [B4 B5]]]].
  assert (E : chosen_pairs [] [] = []) by reflexivity.
  destruct (split_columns cc topo ratio w1 w2 [] [] u _ _ o t TO G Hs Hn Hf NU R1 R2 U1 U2 ND (or_intror (or_introl (conj eq_refl eq_refl))) H) as [V R].
  - rewrite E. intros i j [].
  - rewrite E. intros i [].
  - rewrite E. intros i [].
  - rewrite E in V, R. rewrite B4, B5. split; [exact V|exact R].
Qed.
Print Assumptions C111_beginning.
Theorem C111_ending : forall cc topo ratio w1 w2 x1 x2 u o t tx, topo_ok topo -> good_sigla [w1; w2] -> good_sigla [x1; x2] ->
  o_segmentation o = false -> o_near o = false -> o_filter o = None -> u <> [] ->
  PairSpec.readings w1 = PairSpec.readings x1 ++ u -> PairSpec.readings w2 = PairSpec.readings x2 ++ u ->
  (forall s, In s u -> unrepeated s (PairSpec.readings w1)) -> (forall s, In s u -> unrepeated s (PairSpec.readings w2)) -> no_doublets (PairSpec.readings w2) ->
  collate cc topo ratio [w1; w2] o = Ok (OTable t) -> collate cc topo ratio [x1; x2] o = Ok (OTable tx) ->
  variants t = variants tx ++ map (fun _ => false) u /\ rows_read t = map (fun r => r ++ map (fun s => Some [s]) u) (rows_read tx).
Proof.
  intros cc topo ratio w1 w2 x1 x2 u o t tx TO G GX Hs Hn Hf NU R1 R2 U1 U2 ND H HX.
  destruct (whole_columns cc topo ratio x1 x2 o tx TO GX Hs Hn Hf HX) as [A1 [A2 [A3 [A4 A5]]]].
  assert (E : chosen_pairs [] [] = []) by reflexivity.
  destruct (split_columns cc topo ratio w1 w2 _ _ u [] [] o t TO G Hs Hn Hf NU ltac:(rewrite app_nil_r; exact R1) ltac:(rewrite app_nil_r; exact R2) U1 U2 ND (or_intror (or_intror (conj eq_refl eq_refl))) H A1 A2 A3) as [V R].
  rewrite E in V, R. cbn [layout length] in V, R. unfold gap in V, R. cbn [Nat.sub Nat.max seq map] in V, R. rewrite app_nil_r in V. rewrite !app_nil_r in R. rewrite A4, A5. split; [exact V|exact R].
Qed.
Print Assumptions C111_ending.

(** The hypotheses are met: "so the black cat ran" against "but the black cat ran" is the collation of "so" and "but", the
    columns of "the black cat", and the collation of "ran" and "ran". *)
Definition shared : list str := [lit "the"; lit "black"; lit "cat"].
Definition cut : list witness := [words "A" ["so"; "the"; "black"; "cat"; "ran"]; words "B" ["but"; "the"; "black"; "cat"; "ran"]].
Example C111_example : good_sigla cut /\ good_sigla [words "A" ["so"]; words "B" ["but"]] /\ good_sigla [words "A" ["ran"]; words "B" ["ran"]] /\
  map PairSpec.readings cut = [[lit "so"] ++ shared ++ [lit "ran"]; [lit "but"] ++ shared ++ [lit "ran"]] /\
  (forall w s, In w cut -> In s shared -> unrepeated s (PairSpec.readings w)) /\ (forall w, In w cut -> no_doublets (PairSpec.readings w)) /\
  long_or_outer [lit "so"] [lit "but"] shared [lit "ran"] [lit "ran"] /\
  exists t tx ty, collate ascii_cc kahn sample_ratio cut (plain_options "table") = Ok (OTable t) /\
    collate ascii_cc kahn sample_ratio [words "A" ["so"]; words "B" ["but"]] (plain_options "table") = Ok (OTable tx) /\
    collate ascii_cc kahn sample_ratio [words "A" ["ran"]; words "B" ["ran"]] (plain_options "table") = Ok (OTable ty) /\
    variants tx = [true] /\ variants ty = [false] /\ variants t = [true; false; false; false; false].
Proof.
  assert (U : forall l, NoDup l -> forall s : str, unrepeated s l).
  { intros l N s i j H1 H2. apply (proj1 (NoDup_nth_error l) N); [apply nth_error_Some; congruence|congruence]. }
  assert (ND : forall w, In w cut -> NoDup (PairSpec.readings w)).
  { intros w [<-|[<-|[]]]; vm_compute; repeat constructor; cbn; intuition discriminate. }
  assert (GS : forall a b, good_sigla [words "A" a; words "B" b]) by (intros a b; split; [repeat constructor; cbn; intuition discriminate|cbn; intuition discriminate]).
  split; [apply GS|]. split; [apply GS|]. split; [apply GS|]. split; [reflexivity|].
  split; [intros w s Hw _; apply U, ND, Hw|]. split; [|split; [left; cbn; lia|]].
  - intros w Hw i s H1 H2. pose proof (U _ (ND w Hw) s i (S i) H1 H2). lia.
  - eexists _, _, _. split; [vm_compute; reflexivity|]. split; [vm_compute; reflexivity|]. split; [vm_compute; reflexivity|].
    split; [vm_compute; reflexivity|]. split; vm_compute; reflexivity.
Qed.
