(** Which of the possible alignments is chosen (C106). *)
From Verif Require Import Py TokenModel SuffixModel IndexModel GraphModel AlignModel TableModel NearModel ExportModel
  CollateModel Lib GraphSpec TableSpec CollateSpec Samples TopoProof WalkSpec WalkProof Props_align PairSpec ChosenSpec ChosenProof PairProof Props_pair
  SegTableSpec SegTableProof Props_segtable NearTableSpec Props_neartable.
From Coq Require Import QArith Sorted.
Open Scope list_scope.
Open Scope nat_scope.

(** ** C106: the alignment is that of the textbook recursion.
    For every way of matching tokens with ranks, [best_way] goes to the token and the rank it is asked for, no
    other way there has more points, and it is the only such way that keeps to the order of preference: where two
    ways are equally good, a pair comes before an omission and an omission before an addition. *)
Theorem C106_best_way : forall M y x, let ms := snd (best_way M y x) in
  at_token (walk M ms) = y /\ at_rank (walk M ms) = x /\ points (walk M ms) = fst (best_way M y x) /\
  (forall ms', at_token (walk M ms') = y -> at_rank (walk M ms') = x -> (points (walk M ms') <= points (walk M ms))%Z) /\
  preferred M ms /\
  forall ms', at_token (walk M ms') = y -> at_rank (walk M ms') = x -> points (walk M ms') = points (walk M ms) -> preferred M ms' -> ms' = ms.
Proof.
  intros M y x ms. destruct (best_way_good M y x) as [E [Q [B P]]]. fold ms in E, Q, B, P. pose proof E as [E1 E2].
  split; [exact E1|]. split; [exact E2|]. split; [exact Q|]. split; [|split; [exact P|]].
  - intros ms' A1 A2. apply (B ms' y x E). split; assumption.
  - intros ms' A1 A2 A3 P'. apply (one_way M ms' ms y x); auto; [split; assumption|]. intros ms2 y2 x2 F1 F2.
    rewrite A3. destruct F1 as [F1 F3], F2 as [F2 F4]. apply (B ms2 y x E). split; congruence.
Qed.
Print Assumptions C106_best_way.

(** Every further witness is aligned along the best way, where token y and rank x match if the graph has a vertex of
    rank x with the reading of token y. *)
Theorem C106_every_witness : forall topo c k g g' w rk M, topo_ok topo -> good_sigla c ->
  stage topo None c k = Ok g -> stage topo None c (S k) = Ok g' -> nth_error c (S k) = Some w -> longest_from_start g rk ->
  (forall y x, M y x = true <-> same_reading g rk w y x) ->
  let l := met (walk M (snd (best_way M (length (w_toks w)) (rk v_end - 1)))) in
  exists path, stands_on g' w path /\
    (forall i v, nth_error path i = Some v -> In v (vertices g) -> In (S i, rk v) l) /\
    (forall y x, In (y, x) l -> (forall y', In (y', x) l -> y' <= y) -> exists v t, nth_error path (y - 1) = Some v /\ In v (vertices g) /\ rk v = x /\
       nth_error (w_toks w) (y - 1) = Some t /\ reads g v (t0_str t)) /\
    (forall v, In v (vertices g') <-> In v (vertices g) \/ In v path).
Proof.
  intros topo c k g g' w rk M TO G H1 H2 Hw LG HM l.
  destruct (C17_optimal topo None c k g g' w rk TO G H1 H2 Hw LG) as [M' [ms [path [A1 [A2 [A3 [A4 [A5 [A6 [A7 [A8 [A9 [_ A10]]]]]]]]]]]]].
  assert (EQ : forall y x, M' y x = M y x).
  { intros y x. destruct (M' y x) eqn:E, (M y x) eqn:E'; try reflexivity; exfalso.
    - rewrite (proj2 (HM y x) (A1 y x E)) in E'. discriminate.
    - rewrite (A2 eq_refl y x (proj1 (HM y x) E')) in E. discriminate. }
  pose proof (walk_ext _ _ EQ) as EX. destruct (C106_best_way M (length (w_toks w)) (rk v_end - 1)) as [B1 [B2 [_ [B3 [_ B4]]]]].
  assert (EM : ms = snd (best_way M (length (w_toks w)) (rk v_end - 1))).
  { apply B4; [rewrite <- EX; exact A4|rewrite <- EX; exact A3| |].
    - apply Z.le_antisymm; [apply B3; rewrite <- EX; assumption|]. rewrite <- !EX. apply A5; rewrite EX; assumption.
    - intros before m after E m' SO other R T. rewrite <- !EX in *. exact (A10 before m after E m' SO other R T). }
  assert (EL : l = met (walk M' ms)) by (unfold l; rewrite <- EM, EX; reflexivity). rewrite EL. exists path. split; [exact A6|]. split; [|split; [|exact A9]].
  - intros i v Hi Hv. destruct A6 as [_ [L _]]. destruct (nth_error (w_toks w) i) as [t|] eqn:Ht; [apply (A7 i v t Hi Ht Hv)|].
    exfalso. apply nth_error_None in Ht. assert (i < length path) by (apply nth_error_Some; congruence). lia.
  - intros y x Hy LA. destruct (A8 y x Hy) as [y' [v [t [t' [C1 [C2 [C3 [C4 [C5 [C6 [C7 C8]]]]]]]]]]]. assert (y' = y) by (specialize (LA y' C2); lia). subst y'.
    exists v, t. repeat (split; [assumption|]).
    assert (Y : 1 <= y). { destruct (walk_met M' ms) as [_ MT]. apply MT in Hy as [Hy _]. cbn [fst snd] in Hy. destruct (A1 y x Hy) as [? [? [? _]]]. assumption. }
    destruct (A7 (y - 1) v t C3) as [_ Z]; [exact C6|exact C4|exact Z].
Qed.
Print Assumptions C106_every_witness.

(** The table of two witnesses is therefore known from their readings, whatever they are: without segmentation, *)
Theorem C106_plain : forall cc topo ratio w1 w2 o t, topo_ok topo -> good_sigla [w1; w2] ->
  o_segmentation o = false -> o_near o = false -> o_filter o = None -> collate cc topo ratio [w1; w2] o = Ok (OTable t) ->
  let P := chosen_pairs (readings w1) (readings w2) in
  let C := layout 0 0 (length (w_toks w1)) (length (w_toks w2)) P in
  (exists c1 c2, t_rows t = [{| r_header := w_sigil w1; r_cells := c1 |}; {| r_header := w_sigil w2; r_cells := c2 |}] /\
     Forall2 (shows w1) (map fst C) c1 /\ Forall2 (shows w2) (map snd C) c2) /\
  Forall2 (fun c col => c_variant col = false <-> exists x y, c = (Some x, Some y) /\ In (x, y) P) C (t_columns t).
Proof.
  intros cc topo ratio w1 w2 o t TO G Hs Hn Hf H. destruct (C60_two_witnesses cc topo ratio w1 w2 o t TO G Hs Hn H) as [P [_ [A [_ [_ B]]]]].
  rewrite <- (B Hf). exact A.
Qed.
Print Assumptions C106_plain.

(** with segmentation, *)
Theorem C106_segmented : forall cc topo ratio w1 w2 o t, topo_ok topo -> good_sigla [w1; w2] ->
  o_segmentation o = true -> o_near o = false -> o_filter o = None -> collate cc topo ratio [w1; w2] o = Ok (OTable t) ->
  let C := stretches 0 0 0 0 (length (w_toks w1)) (length (w_toks w2)) (chosen_pairs (readings w1) (readings w2)) in
  (exists c1 c2, t_rows t = [{| r_header := w_sigil w1; r_cells := c1 |}; {| r_header := w_sigil w2; r_cells := c2 |}] /\
     Forall2 (fun s c => shows_all w1 (snd (fst s)) c) C c1 /\ Forall2 (fun s c => shows_all w2 (snd s) c) C c2) /\
  map c_variant (t_columns t) = map (fun s => negb (fst (fst s))) C.
Proof.
  intros cc topo ratio w1 w2 o t TO G Hs Hn Hf H. destruct (C104_segmented cc topo ratio w1 w2 o t TO G Hs Hn H) as [P [_ [A [_ [_ B]]]]].
  rewrite <- (B Hf). exact A.
Qed.
Print Assumptions C106_segmented.

(** and with near matching. *)
Theorem C106_near : forall cc topo ratio w1 w2 o t, topo_ok topo -> good_sigla [w1; w2] ->
  o_near o = true -> o_filter o = None -> collate cc topo ratio [w1; w2] o = Ok (OTable t) ->
  let P := chosen_pairs (readings w1) (readings w2) in
  let C := near_layout (likeness ratio (readings w1) (readings w2)) (likeness ratio (readings w2) (readings w1)) 0 0 (length (w_toks w1)) (length (w_toks w2)) P in
  (exists c1 c2, t_rows t = [{| r_header := w_sigil w1; r_cells := c1 |}; {| r_header := w_sigil w2; r_cells := c2 |}] /\
     Forall2 (shows w1) (map fst C) c1 /\ Forall2 (shows w2) (map snd C) c2) /\
  Forall2 (fun c col => c_variant col = false <-> exists x y, c = (Some x, Some y) /\ In (x, y) P) C (t_columns t).
Proof.
  intros cc topo ratio w1 w2 o t TO G Hn Hf H. destruct (C105_near_table cc topo ratio w1 w2 o t TO G Hn H) as [P [_ [A [_ [_ B]]]]].
  rewrite <- (B Hf). exact A.
Qed.
Print Assumptions C106_near.

(** The hypotheses are met; a doubled word takes part, and of two equally good ways the one with the omission
    later in the text is taken. *)
Example C106_example : let w1 := words "A" ["a"; "x"; "y"] in let w2 := words "B" ["x"; "y"; "a"; "a"; "a"; "a"] in
  good_sigla [w1; w2] /\ chosen_pairs (readings w1) (readings w2) = [(0, 5)] /\
  exists t, collate ascii_cc kahn sample_ratio [w1; w2] (plain_options "table") = Ok (OTable t) /\
    map (fun ro => map (option_map (map tk_str)) (r_cells ro)) (t_rows t) =
      [map (option_map (fun s => [lit s])) [None; None; None; None; None; Some "a"; Some "x"; Some "y"];
       map (option_map (fun s => [lit s])) [Some "x"; Some "y"; Some "a"; Some "a"; Some "a"; Some "a"; None; None]].
Proof.
  cbv zeta. split; [split; [repeat constructor; cbn; intuition discriminate|cbn; intuition discriminate]|]. split; [vm_compute; reflexivity|].
  destruct (collate ascii_cc kahn sample_ratio [words "A" ["a"; "x"; "y"]; words "B" ["x"; "y"; "a"; "a"; "a"; "a"]] (plain_options "table")) as [x|] eqn:E; [|exfalso; vm_compute in E; discriminate].
  vm_compute in E. injection E as <-. eexists. split; [reflexivity|]. vm_compute; reflexivity.
Qed.
Example C106_tie_example : let w1 := words "A" ["a"; "b"] in let w2 := words "B" ["b"; "a"] in
  let M := same_word (readings w1) (readings w2) in
  good_sigla [w1; w2] /\ snd (best_way M 2 2) = [Add; Pair; Omit] /\
  points (walk M [Omit; Pair; Add]) = points (walk M [Add; Pair; Omit]) /\ chosen_pairs (readings w1) (readings w2) = [(0, 1)].
Proof. cbv zeta. split; [split; [repeat constructor; cbn; intuition discriminate|cbn; intuition discriminate]|]. repeat split; vm_compute; reflexivity. Qed.
