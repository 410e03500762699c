(** A common passage cuts the collation of two witnesses in two, with near matching (C111). *)
From Verif Require Import Py TokenModel SuffixModel IndexModel GraphModel AlignModel TableModel NearModel ExportModel
  CollateModel Lib GraphSpec TableSpec CollateSpec Samples TopoProof PairSpec ChosenSpec CommonSpec PairProof NearTableSpec Props_neartable PassageProof SplitSpec SplitProof NearSplitProof Props_split.
From Coq Require Import QArith Sorted.
Open Scope list_scope.
Open Scope nat_scope.

Definition near_columns (ratio : str -> str -> Q) (X1 X2 : list str) : list (option nat * option nat) :=
  near_layout (likeness ratio X1 X2) (likeness ratio X2 X1) 0 0 (length X1) (length X2) (chosen_pairs X1 X2).

Lemma near_split_columns : forall cc topo ratio w1 w2 X1 X2 u Y1 Y2 o t, topo_ok topo -> good_sigla [w1; w2] ->
  o_near o = true -> o_filter o = None -> u <> [] ->
  PairSpec.readings w1 = X1 ++ u ++ Y1 -> PairSpec.readings w2 = X2 ++ u ++ Y2 ->
  (forall s, In s u -> unrepeated s (PairSpec.readings w1)) -> (forall s, In s u -> unrepeated s (PairSpec.readings w2)) -> no_doublets (PairSpec.readings w2) ->
  long_or_outer X1 X2 u Y1 Y2 -> collate cc topo ratio [w1; w2] o = Ok (OTable t) ->
  let CX := near_columns ratio X1 X2 in let CY := near_columns ratio Y1 Y2 in
  (forall p, In p (chosen_pairs X1 X2) -> fst p < length X1 /\ snd p < length X2) ->
  (forall i, In (Some i) (map fst CX) -> i < length X1) -> (forall i, In (Some i) (map snd CX) -> i < length X2) ->
  variants t = map (fun c => negb (paired (chosen_pairs X1 X2) c)) CX ++ map (fun _ => false) u ++ map (fun c => negb (paired (chosen_pairs Y1 Y2) c)) CY /\
  rows_read t = [map (reading_at X1) (map fst CX) ++ map (fun s => Some [s]) u ++ map (reading_at Y1) (map fst CY);
                 map (reading_at X2) (map snd CX) ++ map (fun s => Some [s]) u ++ map (reading_at Y2) (map snd CY)].
Proof.
  intros cc topo ratio w1 w2 X1 X2 u Y1 Y2 o t TO G Hn Hf NU R1 R2 U1 U2 ND LN H CX CY LP BX1 BX2.
  destruct (C105_near_table cc topo ratio w1 w2 o t TO G Hn H) as [P [AG [[[c1 [c2 [TR [F1 F2]]]] FC] [_ [_ EP]]]]]. specialize (EP Hf).
  rewrite R1, R2 in EP. rewrite C111_pairs in EP by (rewrite <- ?R1, <- ?R2; assumption).
  assert (LR : forall w, length (w_toks w) = length (PairSpec.readings w)) by (intros w; unfold PairSpec.readings; rewrite map_length; reflexivity).
  rewrite !LR in *. rewrite EP, R1, R2, near_split_layout in F1, F2, FC by assumption. fold (near_columns ratio X1 X2) in F1, F2, FC. fold (near_columns ratio Y1 Y2) in F1, F2, FC. fold CX CY in F1, F2, FC.
  apply shown_reading in F1 as [F1 _]. apply shown_reading in F2 as [F2 _].
  assert (LP' : forall p, In p (chosen_pairs X1 X2) -> fst p < length X1) by (intros p Hp; apply LP; exact Hp).
  split.
  - unfold variants. rewrite (variant_list _ _ _ FC). rewrite !map_app.
    f_equal; [|f_equal].
    + apply map_ext_in. intros c Hc. f_equal. destruct (paired_parts _ _ (length X2) (length u) (chosen_pairs Y1 Y2) None None LP') as [Q _]. apply Q.
      intros i Hi. apply BX1. rewrite <- Hi. apply in_map. exact Hc.
    + rewrite map_map. destruct (paired_parts _ _ (length X2) (length u) (chosen_pairs Y1 Y2) None None LP') as [_ [Q _]].
      rewrite (map_ext_in _ (fun _ => false)) by (intros i Hi; apply in_seq in Hi; rewrite Q by lia; reflexivity).
      clear. generalize 0. induction u as [|s u IH]; intros k; [reflexivity|]. cbn [length seq map]. f_equal. apply IH.
    + rewrite map_map. apply map_ext. intros [a b]. destruct (paired_parts _ _ (length X2) (length u) (chosen_pairs Y1 Y2) a b LP') as [_ [_ Q]]. f_equal. exact Q.
  - unfold rows_read. rewrite TR. cbn [map r_cells].
    rewrite F1, F2, R1, R2, !map_app.
    rewrite (front_reading X1 (u ++ Y1)), (front_reading X2 (u ++ Y2)) by assumption.
    assert (MF : forall a b l, map fst (map (moved_by a b) l) = map (option_map (Nat.add a)) (map fst l)) by (intros; rewrite !map_map; reflexivity).
    assert (MS : forall a b l, map snd (map (moved_by a b) l) = map (option_map (Nat.add b)) (map snd l)) by (intros; rewrite !map_map; reflexivity).
    rewrite MF, MS, !back_reading. rewrite (map_map _ fst), (map_map _ snd). cbn [fst snd]. rewrite !middle_reading. reflexivity.
Qed.
Lemma near_whole_columns : forall cc topo ratio x1 x2 o t, topo_ok topo -> good_sigla [x1; x2] -> o_near o = true -> o_filter o = None ->
  collate cc topo ratio [x1; x2] o = Ok (OTable t) ->
  let X1 := PairSpec.readings x1 in let X2 := PairSpec.readings x2 in let CX := near_columns ratio X1 X2 in
  (forall p, In p (chosen_pairs X1 X2) -> fst p < length X1 /\ snd p < length X2) /\
  (forall i, In (Some i) (map fst CX) -> i < length X1) /\ (forall i, In (Some i) (map snd CX) -> i < length X2) /\
  variants t = map (fun c => negb (paired (chosen_pairs X1 X2) c)) CX /\ rows_read t = [map (reading_at X1) (map fst CX); map (reading_at X2) (map snd CX)].
Proof.
  intros cc topo ratio x1 x2 o t TO G Hn Hf H X1 X2 CX.
  destruct (C105_near_table cc topo ratio x1 x2 o t TO G Hn H) as [P [AG [[[c1 [c2 [TR [F1 F2]]]] FC] [_ [_ EP]]]]]. specialize (EP Hf).
  assert (LR : forall w, length (w_toks w) = length (PairSpec.readings w)) by (intros w; unfold PairSpec.readings; rewrite map_length; reflexivity).
  rewrite !LR in *. subst P. fold X1 X2 in AG, F1, F2, FC. fold (near_columns ratio X1 X2) in F1, F2, FC. fold CX in F1, F2, FC.
  apply shown_reading in F1 as [F1 B1]. apply shown_reading in F2 as [F2 B2].
  split; [intros [i j] Hp; destruct AG as [_ AG]; destruct (AG i j Hp) as [s [S1 S2]]; cbn [fst snd]; split; apply nth_error_Some; congruence|].
  split; [exact B1|]. split; [exact B2|]. split; [unfold variants; apply variant_list; exact FC|].
  unfold rows_read. rewrite TR. cbn [map r_cells]. rewrite F1, F2. reflexivity.
Qed.

(** ** C111 with near matching *)
Theorem C111_near : forall cc topo ratio w1 w2 x1 x2 y1 y2 u o t tx ty, topo_ok topo -> good_sigla [w1; w2] -> good_sigla [x1; x2] -> good_sigla [y1; y2] ->
  o_near o = true -> o_filter o = None -> u <> [] ->
  PairSpec.readings w1 = PairSpec.readings x1 ++ u ++ PairSpec.readings y1 -> PairSpec.readings w2 = PairSpec.readings x2 ++ u ++ PairSpec.readings y2 ->
  (forall s, In s u -> unrepeated s (PairSpec.readings w1)) -> (forall s, In s u -> unrepeated s (PairSpec.readings w2)) -> no_doublets (PairSpec.readings w2) ->
  long_or_outer (PairSpec.readings x1) (PairSpec.readings x2) u (PairSpec.readings y1) (PairSpec.readings y2) ->
  collate cc topo ratio [w1; w2] o = Ok (OTable t) -> collate cc topo ratio [x1; x2] o = Ok (OTable tx) -> collate cc topo ratio [y1; y2] o = Ok (OTable ty) ->
  variants t = variants tx ++ map (fun _ => false) u ++ variants ty /\
  exists a1 a2 b1 b2, rows_read tx = [a1; a2] /\ rows_read ty = [b1; b2] /\
    rows_read t = [a1 ++ map (fun s => Some [s]) u ++ b1; a2 ++ map (fun s => Some [s]) u ++ b2].
Proof.
  intros cc topo ratio w1 w2 x1 x2 y1 y2 u o t tx ty TO G GX GY Hn Hf NU R1 R2 U1 U2 ND LN H HX HY.
  destruct (near_whole_columns cc topo ratio x1 x2 o tx TO GX Hn Hf HX) as [A1 [A2 [A3 [A4 A5]]]].
  destruct (near_whole_columns cc topo ratio y1 y2 o ty TO GY Hn Hf HY) as [_ [_ [_ [B4 B5]]]].
  destruct (near_split_columns cc topo ratio w1 w2 _ _ u _ _ o t TO G Hn Hf NU R1 R2 U1 U2 ND LN H A1 A2 A3) as [V R].
  rewrite A4, B4. split; [exact V|]. rewrite A5, B5. eexists _, _, _, _. split; [reflexivity|]. split; [reflexivity|]. exact R.
Qed.
Print Assumptions C111_near.
Theorem C111_near_beginning : forall cc topo ratio w1 w2 y1 y2 u o t ty, topo_ok topo -> good_sigla [w1; w2] -> good_sigla [y1; y2] ->
  o_near o = true -> o_filter o = None -> u <> [] ->
  PairSpec.readings w1 = u ++ PairSpec.readings y1 -> PairSpec.readings w2 = u ++ PairSpec.readings y2 ->
  (forall s, In s u -> unrepeated s (PairSpec.readings w1)) -> (forall s, In s u -> unrepeated s (PairSpec.readings w2)) -> no_doublets (PairSpec.readings w2) ->
  collate cc topo ratio [w1; w2] o = Ok (OTable t) -> collate cc topo ratio [y1; y2] o = Ok (OTable ty) ->
  variants t = map (fun _ => false) u ++ variants ty /\ rows_read t = map (fun r => map (fun s => Some [s]) u ++ r) (rows_read ty).
Proof.
  intros cc topo ratio w1 w2 y1 y2 u o t ty TO G GY Hn Hf NU R1 R2 U1 U2 ND H HY.
  destruct (near_whole_columns cc topo ratio y1 y2 o ty TO GY Hn Hf HY) as [_ [_ [_ [B4 B5]]]].
  assert (E : chosen_pairs [] [] = []) by reflexivity. assert (E' : near_columns ratio [] [] = []) by reflexivity.
  destruct (near_split_columns cc topo ratio w1 w2 [] [] u _ _ o t TO G Hn Hf NU R1 R2 U1 U2 ND (or_intror (or_introl (conj eq_refl eq_refl))) H) as [V R].
  - rewrite E. intros p [].
  - rewrite E'. intros i [].
  - rewrite E'. intros i [].
  - rewrite E' in V, R. rewrite B4, B5. split; [exact V|exact R].
Qed.
Print Assumptions C111_near_beginning.
Theorem C111_near_ending : forall cc topo ratio w1 w2 x1 x2 u o t tx, topo_ok topo -> good_sigla [w1; w2] -> good_sigla [x1; x2] ->
  o_near o = true -> o_filter o = None -> u <> [] ->
  PairSpec.readings w1 = PairSpec.readings x1 ++ u -> PairSpec.readings w2 = PairSpec.readings x2 ++ u ->
  (forall s, In s u -> unrepeated s (PairSpec.readings w1)) -> (forall s, In s u -> unrepeated s (PairSpec.readings w2)) -> no_doublets (PairSpec.readings w2) ->
  collate cc topo ratio [w1; w2] o = Ok (OTable t) -> collate cc topo ratio [x1; x2] o = Ok (OTable tx) ->
  variants t = variants tx ++ map (fun _ => false) u /\ rows_read t = map (fun r => r ++ map (fun s => Some [s]) u) (rows_read tx).
Proof.
  intros cc topo ratio w1 w2 x1 x2 u o t tx TO G GX Hn Hf NU R1 R2 U1 U2 ND H HX.
  destruct (near_whole_columns cc topo ratio x1 x2 o tx TO GX Hn Hf HX) as [A1 [A2 [A3 [A4 A5]]]].
  assert (E' : near_columns ratio [] [] = []) by reflexivity.
  destruct (near_split_columns cc topo ratio w1 w2 _ _ u [] [] o t TO G Hn Hf NU ltac:(rewrite app_nil_r; exact R1) ltac:(rewrite app_nil_r; exact R2) U1 U2 ND (or_intror (or_intror (conj eq_refl eq_refl))) H A1 A2 A3) as [V R].
  rewrite E' in V, R. cbn [map] in V, R. rewrite app_nil_r in V. rewrite !app_nil_r in R. rewrite A4, A5. split; [exact V|exact R].
Qed.
Print Assumptions C111_near_ending.

(** The hypotheses are met by the witnesses of [C111_example]. *)
Example C111_near_example : exists t tx ty, collate ascii_cc kahn sample_ratio cut (near_options "table") = Ok (OTable t) /\
    collate ascii_cc kahn sample_ratio [words "A" ["so"]; words "B" ["but"]] (near_options "table") = Ok (OTable tx) /\
    collate ascii_cc kahn sample_ratio [words "A" ["ran"]; words "B" ["ran"]] (near_options "table") = Ok (OTable ty) /\
    o_near (near_options "table") = true /\ o_filter (near_options "table") = None /\ variants t = [true; false; false; false; false].
Proof.
  eexists _, _, _. split; [vm_compute; reflexivity|]. split; [vm_compute; reflexivity|]. split; [vm_compute; reflexivity|].
  split; [reflexivity|]. split; [reflexivity|]. vm_compute. reflexivity.
Qed.
