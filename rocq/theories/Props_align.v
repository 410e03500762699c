(** The alignment of one witness with the graph, and identical witnesses (C11, C17). *)
From Verif Require Import Py TokenModel SuffixModel IndexModel GraphModel AlignModel TableModel NearModel ExportModel
  CollateModel Lib GraphSpec TableSpec CollateSpec Samples RankProof TopoProof ResultProof FactsProof OutputProof StageProof NearProof WalkSpec WalkProof WalkStage IdentProof.
From Coq Require Import Permutation QArith.
Open Scope list_scope.
Open Scope nat_scope.

(** ** C17: the alignment of each witness has the highest score.
    [g] is the graph before the witness number S k is added, [g'] the graph afterwards, [rk]
    the ranks of [g].  Token y may be matched with rank x if the token is compared like a
    token on a vertex of rank x.  The tokens that join a vertex of [g] are matches of the
    alignment, and each match of the alignment belongs to a token that joins a vertex of
    its rank: itself, or a later one that matches the same rank and has the same reading.
    [g'] is [g] with the path of the witness added.  Of equally good alignments the one that
    pairs last is chosen. *)
Theorem C17_optimal : forall topo filt c k g g' w rk, topo_ok topo -> good_sigla c ->
  stage topo filt c k = Ok g -> stage topo filt c (S k) = Ok g' -> nth_error c (S k) = Some w -> longest_from_start g rk ->
  exists M ms path,
    (forall y x, M y x = true -> same_reading g rk w y x) /\
    (filt = None -> forall y x, same_reading g rk w y x -> M y x = true) /\
    at_rank (walk M ms) = rk v_end - 1 /\ at_token (walk M ms) = length (w_toks w) /\
    (forall ms', at_rank (walk M ms') = rk v_end - 1 -> at_token (walk M ms') = length (w_toks w) ->
       (points (walk M ms') <= points (walk M ms))%Z) /\
    stands_on g' w path /\
    (forall i v t, nth_error path i = Some v -> nth_error (w_toks w) i = Some t -> In v (vertices g) ->
       In (S i, rk v) (met (walk M ms)) /\ reads g v (t0_str t)) /\
    (forall y x, In (y, x) (met (walk M ms)) -> exists y' v t t', y <= y' /\ In (y', x) (met (walk M ms)) /\
      nth_error path (y' - 1) = Some v /\ In v (vertices g) /\ rk v = x /\
      nth_error (w_toks w) (y - 1) = Some t /\ nth_error (w_toks w) (y' - 1) = Some t' /\ t0_str t = t0_str t') /\
    (forall v, In v (vertices g') <-> In v (vertices g) \/ In v path) /\
    (forall u v, edge g' u v <-> edge g u v \/ In (u, v) (pairs (v_start :: path ++ [v_end]))) /\
    preferred M ms.
Proof. exact stage_optimal_path. Qed.
Print Assumptions C17_optimal.

(** Where no rank has readings for two neighbouring tokens, this is the usual optimal
    alignment: +1 for passing a token together with a rank it matches, -1 for every other
    move; and the matches are exactly the tokens that join vertices. *)
Theorem C17_usual_score : forall topo c k g g' w rk, topo_ok topo -> good_sigla c ->
  stage topo None c k = Ok g -> stage topo None c (S k) = Ok g' -> nth_error c (S k) = Some w -> longest_from_start g rk ->
  (forall y x, same_reading g rk w y x -> ~ same_reading g rk w (S y) x) ->
  exists M ms path,
    (forall y x, M y x = true <-> same_reading g rk w y x) /\
    at_rank (plain_walk M ms) = rk v_end - 1 /\ at_token (plain_walk M ms) = length (w_toks w) /\
    (forall ms', at_rank (plain_walk M ms') = rk v_end - 1 -> at_token (plain_walk M ms') = length (w_toks w) ->
       (points (plain_walk M ms') <= points (plain_walk M ms))%Z) /\
    stands_on g' w path /\
    (forall i x, In (S i, x) (met (plain_walk M ms)) <-> exists v, nth_error path i = Some v /\ In v (vertices g) /\ rk v = x).
Proof.
  intros topo c k g g' w rk TO G H1 H2 Hw LG NN.
  destruct (stage_optimal topo None c k g g' w rk TO G H1 H2 Hw LG) as [M [ms [path [A1 [A2 [A3 [A4 [A5 [A6 [A7 A8]]]]]]]]]].
  assert (EQ : forall ms, walk M ms = plain_walk M ms).
  { apply walk_plain. intros y x E. destruct (M (S y) x) eqn:F; [|reflexivity]. exfalso. apply (NN y x); apply A1; assumption. }
  rewrite EQ in *. exists M, ms, path. split; [intros; split; auto|]. split; [assumption|]. split; [assumption|].
  split; [intros ms' B1 B2; rewrite <- !EQ; rewrite <- EQ in A5; apply A5; rewrite EQ; assumption|]. split; [assumption|].
  intros i x. split.
  - intros Q. destruct (A8 _ _ Q) as [y' [v [t [t' [B1 [B2 [B3 [B4 [B5 _]]]]]]]]].
    rewrite <- (plain_met_inj M ms _ _ _ Q B2) in B3. replace (S i - 1) with i in B3 by lia. eauto.
  - intros [v [B1 [B2 B3]]]. destruct (nth_error (w_toks w) i) as [t|] eqn:Ht.
    + destruct (A7 i v t B1 Ht B2) as [Q _]. congruence.
    + exfalso. apply nth_error_None in Ht. destruct A6 as [_ [L _]]. assert (i < length path) by (apply nth_error_Some; congruence). lia.
Qed.
Print Assumptions C17_usual_score.

(** Token y of [w2] and token x of [w1] are compared alike. *)
Definition token_match (w1 w2 : witness) (y x : nat) : bool :=
  match nth_error (w_toks w2) (y - 1), nth_error (w_toks w1) (x - 1) with
  | Some b, Some a => str_eqb (t0_str b) (t0_str a)
  | _, _ => false
  end.

(** In general the alignment is not the one with the best usual score: an Add move that
    repeats a match also counts +1.  Here one token is aligned although an alignment with
    two has a higher usual score than any alignment with one. *)
Theorem C17_usual_score_refuted : exists w1 w2 t M, good_sigla [w1; w2] /\
  collate ascii_cc kahn sample_ratio [w1; w2] (plain_options "table") = Ok (OTable t) /\
  (forall y x, M (S y) (S x) = true <-> exists b a, nth_error (w_toks w2) y = Some b /\ nth_error (w_toks w1) x = Some a /\ t0_str b = t0_str a) /\
  length (filter (fun col => length (c_cells col) =? 2) (t_columns t)) = 1 /\
  exists ms', at_rank (plain_walk M ms') = length (w_toks w1) /\ at_token (plain_walk M ms') = length (w_toks w2) /\
    forall ms, at_rank (plain_walk M ms) = length (w_toks w1) -> at_token (plain_walk M ms) = length (w_toks w2) ->
      length (met (plain_walk M ms)) = 1 -> (points (plain_walk M ms) < points (plain_walk M ms'))%Z.
Proof.
  exists (words "A" ["a"; "x"; "y"]), (words "B" ["x"; "y"; "a"; "a"; "a"; "a"]).
  destruct (collate ascii_cc kahn sample_ratio [words "A" ["a"; "x"; "y"]; words "B" ["x"; "y"; "a"; "a"; "a"; "a"]] (plain_options "table")) as [x|] eqn:E; [|exfalso; vm_compute in E; discriminate].
  vm_compute in E. injection E as <-. eexists.
  exists (token_match (words "A" ["a"; "x"; "y"]) (words "B" ["x"; "y"; "a"; "a"; "a"; "a"])).
  split; [split; [repeat constructor; cbn; intuition discriminate|cbn; intuition discriminate]|]. split; [reflexivity|]. split.
  - intros y x. unfold token_match. replace (S y - 1) with y by lia. replace (S x - 1) with x by lia. destruct (nth_error _ y) as [b|].
    + destruct (nth_error _ x) as [a|]; [|split; [discriminate|intros [? [? [_ [Q _]]]]; discriminate]]. rewrite str_eqb_ok. split; [eauto|].
      intros [b' [a' [Q1 [Q2 Q3]]]]. congruence.
    + split; [discriminate|intros [? [? [Q _]]]; discriminate].
  - split; [reflexivity|]. exists [Omit; Pair; Pair; Add; Add; Add; Add]. split; [reflexivity|]. split; [reflexivity|].
    intros ms _ R L. pose proof (plain_length (token_match (words "A" ["a"; "x"; "y"]) (words "B" ["x"; "y"; "a"; "a"; "a"; "a"])) ms) as [P _].
    rewrite plain_points, L. rewrite R in P. cbn [words w_toks map length] in P.
    match goal with |- (_ < ?q)%Z => assert (E : q = (-3)%Z) by (vm_compute; reflexivity); rewrite E end. lia.
Qed.
Print Assumptions C17_usual_score_refuted.

(** The hypotheses are met, and a witness is really aligned: the sample with three witnesses. *)
Example C17_example : exists g g' w rk, stage kahn None three_witnesses 1 = Ok g /\ stage kahn None three_witnesses 2 = Ok g' /\
  nth_error three_witnesses 2 = Some w /\ longest_from_start g rk /\ good_sigla three_witnesses /\ topo_ok kahn /\
  length (vertices g) = 8 /\ length (vertices g') = 9 /\ length (w_toks w) = 4.
Proof.
  assert (G : good_sigla three_witnesses) by (split; [repeat constructor; cbn; intuition discriminate|cbn; intuition discriminate]).
  destruct (stage kahn None three_witnesses 1) as [g|] eqn:E1; [|exfalso; vm_compute in E1; discriminate].
  destruct (stage kahn None three_witnesses 2) as [g'|] eqn:E2; [|exfalso; vm_compute in E2; discriminate].
  destruct (stage_inv kahn None three_witnesses 1 g kahn_topo_ok G E1) as [W [GI [NW _]]].
  destruct (ranking_spec kahn g W kahn_topo_ok GI) as [rk [m [l [_ [_ RO]]]]].
  exists g, g'. eexists. exists rk. split; [reflexivity|]. split; [reflexivity|]. split; [reflexivity|].
  split; [apply (longest g W rk m l GI RO NW)|]. split; [assumption|]. split; [apply kahn_topo_ok|].
  vm_compute in E1. injection E1 as <-. vm_compute in E2. injection E2 as <-. split; [reflexivity|]. split; reflexivity.
Qed.

(** ** C11: identical witnesses *)
Theorem C11_identical_graph : forall cc topo ratio c o ss g, topo_ok topo -> good_sigla c -> all_read c ss -> o_filter o = None ->
  collate cc topo ratio c o = Ok (OGraph g) ->
  exists p, single_path g p /\ length p = (if o_segmentation o then 1 else length ss).
Proof.
  intros cc topo ratio c o ss g TO G AR Hf H. destruct (collate_graph_inv cc topo ratio c o g H) as [r H1].
  destruct (ident_graph cc topo ratio TO c o ss g r G AR (ident_nonempty cc topo ratio c o ss _ AR H1) Hf H1) as [p [W [rk [m [l [SP [_ [_ [_ [_ [_ [S0 S1]]]]]]]]]]]].
  exists p. split; [assumption|]. destruct (o_segmentation o); [destruct (S1 eq_refl) as [v ->]; reflexivity|apply S0; reflexivity].
Qed.
Print Assumptions C11_identical_graph.

Theorem C11_identical_table : forall cc topo ratio c o ss t, topo_ok topo -> good_sigla c -> all_read c ss -> o_filter o = None ->
  collate cc topo ratio c o = Ok (OTable t) ->
  (forall col, In col (t_columns t) -> c_variant col = false) /\
  (o_segmentation o = false -> length (t_columns t) = length ss /\
     Forall2 (fun w ro => r_header ro = w_sigil w /\
       Forall2 (fun t0 cell => exists t, cell = Some [t] /\ came_from (w_sigil w) t0 t) (w_toks w) (r_cells ro)) c (t_rows t)) /\
  (o_segmentation o = true -> length (t_columns t) = 1 /\
     Forall2 (fun w ro => r_header ro = w_sigil w /\
       exists ts, r_cells ro = [Some ts] /\ Forall2 (came_from (w_sigil w)) (w_toks w) ts) c (t_rows t)).
Proof. intros cc topo ratio c o ss t TO. apply ident_table. assumption. Qed.
Print Assumptions C11_identical_table.

(** And the collation succeeds, unless a token looks like a marker (C19). *)
Theorem C11_identical_succeeds : forall cc topo ratio c o ss, topo_ok topo -> c <> [] -> good_sigla c -> all_read c ss -> ss <> [] ->
  (forall s k, In s ss -> s <> lit "$" ++ str_of_nat k) -> o_filter o = None -> o_output o = lit "table" \/ o_output o = lit "graph" ->
  o_astar o = false -> o_transp o = false -> (o_near o = true -> o_segmentation o = false) ->
  exists x, collate cc topo ratio c o = Ok x.
Proof.
  intros cc topo ratio c o ss TO NC G AR NS NM Hf HO HA HT HN.
  apply (succeeds_iff cc topo ratio TO c o NC G); auto.
  - apply Forall_forall. intros w Hw E. apply NS. rewrite <- (AR w Hw), E. reflexivity.
  - destruct HO as [-> | ->]; cbn; auto 20.
  - intros X. exfalso. destruct HO as [E|E]; rewrite E in X; cbn in X; intuition discriminate.
  - split; [|assumption]. apply no_markers_clash. intros w t k Hw Ht. apply NM. rewrite <- (AR w Hw). apply in_map. assumption.
Qed.
Print Assumptions C11_identical_succeeds.

(** Three copies of a text with repeated tokens. *)
Definition three_copies : collation := [words "A" ["a"; "b"; "a"; "a"]; words "B" ["a"; "b"; "a"; "a"]; words "C" ["a"; "b"; "a"; "a"]].
Example C11_example : all_read three_copies [lit "a"; lit "b"; lit "a"; lit "a"] /\ good_sigla three_copies /\
  table_of (collate ascii_cc kahn sample_ratio three_copies (plain_options "table")) = Ok (repeat [[lit "a"]; [lit "b"]; [lit "a"]; [lit "a"]] 3) /\
  table_of (collate ascii_cc kahn sample_ratio three_copies (near_options "table")) = Ok (repeat [[lit "a"]; [lit "b"]; [lit "a"]; [lit "a"]] 3) /\
  table_of (collate ascii_cc kahn sample_ratio three_copies (seg_options "table")) = Ok (repeat [[lit "a"; lit "b"; lit "a"; lit "a"]] 3).
Proof.
  split; [intros w Hw; cbn [three_copies In] in Hw; repeat (destruct Hw as [<-|Hw]; [reflexivity|]); contradiction|].
  split; [split; [repeat constructor; cbn; intuition discriminate|cbn; intuition discriminate]|].
  split; [vm_compute; reflexivity|]. split; vm_compute; reflexivity.
Qed.
