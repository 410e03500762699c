(** Long passages that two witnesses have in common are aligned (C110). *)
From Verif Require Import Py TokenModel SuffixModel IndexModel GraphModel AlignModel TableModel NearModel ExportModel
  CollateModel Lib GraphSpec TableSpec CollateSpec Samples TopoProof PairSpec ChosenSpec CommonSpec SegTableSpec PairProof Props_pair Props_chosen Props_neartable Props_segtable PassageProof.
From Coq Require Import QArith Sorted.
Open Scope list_scope.
Open Scope nat_scope.

(** ** C110: a passage of words that stand nowhere else in the two texts is aligned word by word, in
    neighbouring columns, if twice its length is more than the longer of the texts before it, the
    longer of the texts after it and the shorter of the rests of the texts together, and if the
    second text has no doubled words. *)
Theorem C110_passage : forall cc topo ratio w1 w2 o t X1 X2 u Y1 Y2, topo_ok topo -> good_sigla [w1; w2] ->
  o_segmentation o = false -> o_filter o = None ->
  PairSpec.readings w1 = X1 ++ u ++ Y1 -> PairSpec.readings w2 = X2 ++ u ++ Y2 ->
  (forall s, In s u -> unrepeated s (PairSpec.readings w1)) -> (forall s, In s u -> unrepeated s (PairSpec.readings w2)) ->
  no_doublets (PairSpec.readings w2) ->
  Nat.max (length X1) (length X2) + Nat.max (length Y1) (length Y2) + Nat.min (length X1 + length Y1) (length X2 + length Y2) < 2 * length u ->
  collate cc topo ratio [w1; w2] o = Ok (OTable t) ->
  exists k, forall i s, nth_error u i = Some s -> agreed_column t (k + i) s.
Proof.
  intros cc topo ratio w1 w2 o t X1 X2 u Y1 Y2 TO G Hs Hf R1 R2 U1 U2 ND LN H.
  assert (COL : exists P gp, (forall i j, gp i i j j = []) /\ agreeing (PairSpec.readings w1) (PairSpec.readings w2) P /\ P = chosen_pairs (PairSpec.readings w1) (PairSpec.readings w2) /\
    (let C := columns gp 0 0 (length (w_toks w1)) (length (w_toks w2)) P in
     (exists c1 c2, t_rows t = [{| r_header := w_sigil w1; r_cells := c1 |}; {| r_header := w_sigil w2; r_cells := c2 |}] /\
       Forall2 (shows w1) (map fst C) c1 /\ Forall2 (shows w2) (map snd C) c2) /\
     Forall2 (fun c col => c_variant col = false <-> exists x y, c = (Some x, Some y) /\ In (x, y) P) C (t_columns t))).
  { destruct (o_near o) eqn:Hn.
    - destruct (C105_near_table cc topo ratio w1 w2 o t TO G Hn H) as [P [AG [CL [_ [_ EP]]]]]. rewrite near_columns in CL. eexists P, _.
      split; [apply no_near_gap|]. split; [exact AG|]. split; [exact (EP Hf)|exact CL].
    - destruct (C60_two_witnesses cc topo ratio w1 w2 o t TO G Hs Hn H) as [P [AG [CL [_ [_ EP]]]]]. rewrite plain_columns in CL. eexists P, _.
      split; [apply no_gap|]. split; [exact AG|]. split; [exact (EP Hf)|exact CL]. }
  destruct COL as [P [gp [GP [AG [EP [[c1 [c2 [TR [F1 F2]]]] FC]]]]]].
  assert (IN : forall i, i < length u -> In (length X1 + i, length X2 + i) P).
  { rewrite EP, R1, R2. apply passage_pairs; [rewrite <- R1; exact U1|rewrite <- R2; exact U2|rewrite <- R2; exact ND|exact LN]. }
  destruct (columns_at gp GP (length u) P 0 0 (length (w_toks w1)) (length (w_toks w2)) (length X1) (length X2) (proj1 AG) IN) as [k K].
  exists k. intros i s Hi. assert (Li : i < length u) by (apply nth_error_Some; congruence). specialize (K i Li).
  destruct (Forall2_at_l _ _ _ _ _ FC K) as [col [C1 C2]]. exists col. split; [exact C1|]. split; [apply C2; eauto|].
  assert (RD : forall w X Y j, PairSpec.readings w = X ++ u ++ Y -> j = length X + i -> forall cs f, Forall2 (shows w) (map f (columns gp 0 0 (length (w_toks w1)) (length (w_toks w2)) P)) cs ->
    f (Some (length X1 + i), Some (length X2 + i)) = Some j -> exists tok, nth_error cs (k + i) = Some (Some [tok]) /\ tk_str tok = s).
  { intros w X Y j E -> cs f F Ef. pose proof (map_nth_error f _ _ K) as Q. rewrite Ef in Q. destruct (Forall2_at_l _ _ _ _ _ F Q) as [c [D1 D2]].
    destruct c as [ts|]; cbn [shows] in D2; [|contradiction]. destruct D2 as [t0 [tk [T1 [-> [T2 _]]]]]. exists tk. split; [exact D1|]. rewrite T2.
    pose proof (map_nth_error t0_str _ _ T1) as Q2. change (map t0_str (w_toks w)) with (PairSpec.readings w) in Q2. rewrite E, mid_nth, Hi in Q2 by exact Li. congruence. }
  intros r Hr. rewrite TR in Hr. destruct Hr as [<-|[<-|[]]]; cbn [r_cells].
  - apply (RD w1 X1 Y1 _ R1 eq_refl c1 fst F1 eq_refl).
  - apply (RD w2 X2 Y2 _ R2 eq_refl c2 snd F2 eq_refl).
Qed.
Print Assumptions C110_passage.

(** With segmentation it stands in one column, within the segments of both witnesses. *)
Theorem C110_segmented : forall cc topo ratio w1 w2 o t X1 X2 u Y1 Y2, topo_ok topo -> good_sigla [w1; w2] ->
  o_segmentation o = true -> o_near o = false -> o_filter o = None ->
  PairSpec.readings w1 = X1 ++ u ++ Y1 -> PairSpec.readings w2 = X2 ++ u ++ Y2 ->
  (forall s, In s u -> unrepeated s (PairSpec.readings w1)) -> (forall s, In s u -> unrepeated s (PairSpec.readings w2)) ->
  no_doublets (PairSpec.readings w2) ->
  Nat.max (length X1) (length X2) + Nat.max (length Y1) (length Y2) + Nat.min (length X1 + length Y1) (length X2 + length Y2) < 2 * length u ->
  collate cc topo ratio [w1; w2] o = Ok (OTable t) ->
  exists k, agreed_segment t k (fun ws => exists before after, ws = before ++ u ++ after).
Proof.
  intros cc topo ratio w1 w2 o t X1 X2 u Y1 Y2 TO G Hs Hn Hf R1 R2 U1 U2 ND LN H.
  destruct (C104_segmented cc topo ratio w1 w2 o t TO G Hs Hn H) as [P [AG [[[c1 [c2 [TR [F1 F2]]]] CV] [_ [_ EP]]]]]. specialize (EP Hf).
  assert (IN : forall i, i < length u -> In (length X1 + i, length X2 + i) P).
  { rewrite EP. rewrite R1, R2. apply passage_pairs; [rewrite <- R1; exact U1|rewrite <- R2; exact U2|rewrite <- R2; exact ND|exact LN]. }
  destruct (run_found P 0 0 0 0 (length (w_toks w1)) (length (w_toks w2)) (length X1) (length X2) (length u) (proj1 AG)) as [k [s [K [a [i [b [j [-> [A1 [A2 [B1 B2]]]]]]]]]]];
    [intros; lia|lia|lia|lia|exact IN|].
  exists k. pose proof (map_nth_error (fun s => negb (fst (fst s))) _ _ K) as Q. rewrite <- CV, nth_error_map in Q. cbn [fst negb] in Q.
  destruct (nth_error (t_columns t) k) as [col|] eqn:EC; [|discriminate]. exists col. split; [exact EC|]. split; [injection Q as Q; exact Q|].
  assert (RD : forall w X Y a i c, PairSpec.readings w = X ++ u ++ Y -> a <= length X -> length X + length u <= i -> shows_all w (positions a i) c ->
    exists ts, c = Some ts /\ exists before after, map tk_str ts = before ++ u ++ after).
  { clear - LN. intros w X Y a i c E La Li S. unfold positions in S. destruct (seq a (i - a)) as [|p l] eqn:ES.
    - exfalso. apply (f_equal (@length _)) in ES. rewrite seq_length in ES. cbn in ES. lia.
    - cbn [shows_all] in S. destruct S as [ts [-> F]]. exists ts. split; [reflexivity|]. rewrite <- ES in F. apply (part_of _ a i X u Y (map tk_str ts) E La Li).
      rewrite map_map. clear - F. induction F as [|p t l ts [t0 [T1 [T2 _]]] F IH]; [reflexivity|]. cbn [map]. rewrite IH. f_equal.
      unfold PairSpec.readings. rewrite (map_nth_error t0_str _ _ T1). congruence. }
  intros r Hr. rewrite TR in Hr. destruct Hr as [<-|[<-|[]]]; cbn [r_cells].
  - destruct (Forall2_at_l _ _ _ _ _ F1 K) as [c [D1 D2]]. cbn [fst snd] in D2. destruct (RD w1 X1 Y1 a i c R1 A1 A2 D2) as [ts [-> Z]]. exists ts. auto.
  - destruct (Forall2_at_l _ _ _ _ _ F2 K) as [c [D1 D2]]. cbn [fst snd] in D2. destruct (RD w2 X2 Y2 b j c R2 B1 B2 D2) as [ts [-> Z]]. exists ts. auto.
Qed.
Print Assumptions C110_segmented.

(** The passage [the black cat] is moved by one word. *)
Definition moved : collation := [words "A" ["so"; "the"; "black"; "cat"]; words "B" ["the"; "black"; "cat"; "so"]].
Example C110_example : good_sigla moved /\ map PairSpec.readings moved = [[lit "so"] ++ [lit "the"; lit "black"; lit "cat"] ++ []; [] ++ [lit "the"; lit "black"; lit "cat"] ++ [lit "so"]] /\
  (forall w s, In w moved -> In s [lit "the"; lit "black"; lit "cat"] -> unrepeated s (PairSpec.readings w)) /\
  no_doublets (PairSpec.readings (words "B" ["the"; "black"; "cat"; "so"])) /\
  Nat.max 1 0 + Nat.max 0 1 + Nat.min (1 + 0) (0 + 1) < 2 * 3 /\
  exists t, collate ascii_cc kahn sample_ratio moved (plain_options "table") = Ok (OTable t) /\ map c_variant (t_columns t) = [true; false; false; false; true].
Proof.
  assert (U : forall l, NoDup l -> forall s : str, unrepeated s l).
  { intros l N s i j H1 H2. apply (proj1 (NoDup_nth_error l) N); [apply nth_error_Some; congruence|congruence]. }
  split; [split; [repeat constructor; cbn; intuition discriminate|cbn; intuition discriminate]|]. split; [reflexivity|].
  split; [intros w s [<-|[<-|[]]] _; apply U; vm_compute; repeat constructor; cbn; intuition discriminate|].
  split; [intros [|[|[|[|i]]]] s H; vm_compute in H; try (injection H as <-; vm_compute; discriminate); destruct i; discriminate|]. split; [cbn; lia|].
  eexists. split; [vm_compute; reflexivity|reflexivity].
Qed.

(** A short passage need not be aligned, even if its words stand nowhere else: what stands before it in
    one text and after it in the other is aligned instead. *)
Definition short_passage : collation := [words "A" ["black"; "cat"; "so"]; words "B" ["so"; "black"; "cat"]].
Theorem C110_short_refuted : exists w1 w2 t X1 X2 s Y1 Y2, good_sigla [w1; w2] /\
  PairSpec.readings w1 = X1 ++ [s] ++ Y1 /\ PairSpec.readings w2 = X2 ++ [s] ++ Y2 /\
  unrepeated s (PairSpec.readings w1) /\ unrepeated s (PairSpec.readings w2) /\ no_doublets (PairSpec.readings w2) /\
  collate ascii_cc kahn sample_ratio [w1; w2] (plain_options "table") = Ok (OTable t) /\ ~ exists k, agreed_column t k s.
Proof.
  exists (words "A" ["black"; "cat"; "so"]), (words "B" ["so"; "black"; "cat"]). eexists.
  exists [lit "black"; lit "cat"], [], (lit "so"), [], [lit "black"; lit "cat"].
  split; [split; [repeat constructor; cbn; intuition discriminate|cbn; intuition discriminate]|]. split; [reflexivity|]. split; [reflexivity|].
  split; [intros [|[|[|i]]] [|[|[|j]]] H1 H2; try reflexivity; exfalso; vm_compute in H1, H2; try discriminate; first [destruct i; discriminate|destruct j; discriminate]|].
  split; [intros [|[|[|i]]] [|[|[|j]]] H1 H2; try reflexivity; exfalso; vm_compute in H1, H2; try discriminate; first [destruct i; discriminate|destruct j; discriminate]|].
  split; [intros [|[|[|i]]] s H; vm_compute in H; try (injection H as <-; vm_compute; discriminate); destruct i; discriminate|].
  split; [vm_compute; reflexivity|]. intros [k [col [K1 [K2 K3]]]].
  destruct k as [|[|[|[|k]]]]; cbn [nth_error t_columns] in K1; [injection K1 as <-; discriminate| | |injection K1 as <-; discriminate|destruct k; discriminate].
  all: destruct (K3 _ (or_introl eq_refl)) as [tok [Q1 Q2]]; cbn in Q1; injection Q1 as <-; discriminate.
Qed.
Print Assumptions C110_short_refuted.
