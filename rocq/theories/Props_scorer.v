(** Properties C83 and C84: the scorer and the collate method of the A* aligner. *)
From Verif Require Import Py Lib TokenModel SuffixModel IndexModel SuffixSpec GraphModel GraphSpec AlignModel AStarModel AStarProof Props_astar Samples
  IndexProof BlockText Props_blocks ScorerModel ScorerSpec ScorerProof.
From Coq Require Import QArith Sorting.Sorted.
Open Scope list_scope.
Open Scope nat_scope.

(** ** C83: a scorer that has been given blocks (no two of which overlap) can prepare every witness of
    the index, and two tokens of prepared witnesses match exactly when one of the blocks contains both
    and the properties filter, if there is one, accepts their data. *)
Theorem C83_match : forall c ti bs ws, prepare c = Ok ti -> NoDup (map w_sigil c) -> bs <> [] -> apart bs -> incl ws (ti_wits ti) ->
  exists sc, foldM (prepare_witness ti) ws {| sr_blocks := bs; sr_map := [] |} = Ok sc /\
    forall filt wa wb ta tb, In wa ws -> In wb ws -> In ta (iw_toks wa) -> In tb (iw_toks wb) ->
      (scorer_match filt sc ta tb = 0%Z <->
        in_one_block bs (tk_pos ta) (tk_pos tb) /\ match filt with None => True | Some f => f (tk_data ta) (tk_data tb) = true end) /\
      (scorer_match filt sc ta tb <> 0%Z -> scorer_match filt sc ta tb = (-1)%Z).
Proof.
  intros c ti bs ws P ND NB AP IN. pose proof (prepare_index_ok c ti ND P) as IX.
  destruct (all_prepared c ti IX bs ws [] {| sr_blocks := bs; sr_map := [] |} NB IN) as [sc [E K]].
  { split; [reflexivity|]. split; [intros k o H; discriminate H|intros w t b []]. }
  exists sc. split; [exact E|]. intros filt wa wb ta tb A B TA TB. pose proof (match_known bs ws sc ta tb wa wb AP K A B TA TB) as M. cbn [app] in M. split.
  - destruct filt as [f|]; [|tauto]. rewrite <- M. unfold scorer_match. destruct (dget Nat.eqb (tk_pos ta) (sr_map sc)) as [oa|]; [|intuition discriminate]. destruct (dget Nat.eqb (tk_pos tb) (sr_map sc)) as [ob|]; [|intuition discriminate].
    destruct (nats_eqb (oc_block oa) (oc_block ob)); [|intuition discriminate]. destruct (f (tk_data ta) (tk_data tb)); intuition discriminate.
  - unfold scorer_match. destruct (dget Nat.eqb (tk_pos ta) (sr_map sc)) as [oa|]; [|tauto]. destruct (dget Nat.eqb (tk_pos tb) (sr_map sc)) as [ob|]; [|tauto].
    destruct (nats_eqb (oc_block oa) (oc_block ob)); [|tauto]. destruct filt as [f|]; [|tauto]. destruct (f (tk_data ta) (tk_data tb)); tauto.
Qed.
Print Assumptions C83_match.

(** A token of a witness that was not prepared matches nothing. *)
Theorem C83_unprepared : forall c ti bs ws sc filt wb ta tb, prepare c = Ok ti -> NoDup (map w_sigil c) -> bs <> [] -> incl ws (ti_wits ti) ->
  foldM (prepare_witness ti) ws {| sr_blocks := bs; sr_map := [] |} = Ok sc -> In wb (ti_wits ti) -> ~ In (iw_sigil wb) (map iw_sigil ws) -> In tb (iw_toks wb) ->
  scorer_match filt sc ta tb = (-1)%Z /\ scorer_match filt sc tb ta = (-1)%Z.
Proof.
  intros c ti bs ws sc filt wb ta tb P ND NB IN E WB NW TB. pose proof (prepare_index_ok c ti ND P) as IX.
  destruct (all_prepared c ti IX bs ws [] {| sr_blocks := bs; sr_map := [] |} NB IN) as [sc' [E' [_ [K _]]]].
  { split; [reflexivity|]. split; [intros k o H; discriminate H|intros w t b []]. }
  rewrite E in E'. injection E' as <-. cbn [app] in K.
  assert (D : dget Nat.eqb (tk_pos tb) (sr_map sc) = None).
  { destruct (dget Nat.eqb (tk_pos tb) (sr_map sc)) as [o|] eqn:D; [|reflexivity]. exfalso. destruct (K _ _ D) as [_ [_ [w [t [W [T Q]]]]]].
    apply NW. assert (w = wb); [|subst; apply in_map; exact W]. pose proof (ix_nth c ti IX w t (IN w W) T) as A. pose proof (ix_nth c ti IX wb tb WB TB) as B. rewrite Q, B in A. injection A as <-.
    apply (ix_wit_unique c ti IX w wb tb tb); [apply IN; exact W|exact WB|exact T|exact TB|reflexivity]. }
  unfold scorer_match. rewrite D. split; [destruct (dget Nat.eqb (tk_pos ta) (sr_map sc)); reflexivity|reflexivity].
Qed.
Print Assumptions C83_unprepared.

(** near_match: 0 for a match, otherwise 1 when the ratio of the two strings is above 0.6, otherwise -1. *)
Theorem C83_near : forall ratio filt sc ta tb, let r := scorer_near_match ratio filt sc ta tb in
  (r = 0%Z <-> scorer_match filt sc ta tb = 0%Z) /\
  (r = 1%Z <-> scorer_match filt sc ta tb <> 0%Z /\ (6 # 10 < ratio (tk_str ta) (tk_str tb))%Q) /\
  (r = (-1)%Z <-> scorer_match filt sc ta tb <> 0%Z /\ (ratio (tk_str ta) (tk_str tb) <= 6 # 10)%Q).
Proof.
  intros ratio filt sc ta tb. cbn zeta. unfold scorer_near_match. destruct (scorer_match filt sc ta tb =? 0)%Z eqn:E.
  - apply Z.eqb_eq in E. rewrite E. intuition discriminate.
  - apply Z.eqb_neq in E. destruct (Qle_bool (ratio (tk_str ta) (tk_str tb)) (6 # 10)) eqn:Q; cbn [negb].
    + apply Qle_bool_iff in Q. split; [intuition discriminate|]. split; [|intuition]. split; [discriminate|]. intros [_ L]. exfalso. apply (Qlt_not_le _ _ L Q).
    + assert (L : (6 # 10 < ratio (tk_str ta) (tk_str tb))%Q) by (apply Qnot_le_lt; intros C; apply Qle_bool_iff in C; congruence).
      split; [intuition discriminate|]. split; [intuition|]. split; [discriminate|]. intros [_ C]. exfalso. apply (Qlt_not_le _ _ L C).
Qed.
Print Assumptions C83_near.

(** Left to itself, the scorer can select its blocks only when there is nothing to select: when no
    word occurs twice.  In every other case prepare_witness raises an AttributeError. *)
Lemma lcp_cons : forall {A} (x : A) l l' k, is_lcp l l' k -> is_lcp (x :: l) (x :: l') (S k).
Proof. intros A x l l' k [H1 [H2 [H3 H4]]]. split; [cbn; congruence|]. cbn. split; [lia|]. split; [lia|exact H4]. Qed.
Lemma lcp_exists : forall l l' : list str, exists k, is_lcp l l' k.
Proof.
  assert (Z : forall l l' : list str, (forall x y, nth_error l 0 = Some x -> nth_error l' 0 = Some y -> x <> y) -> is_lcp l l' 0) by (intros l l' H; split; [reflexivity|]; split; [lia|]; split; [lia|exact H]).
  induction l as [|x l IH]; intros l'; [exists 0; apply Z; discriminate|]. destruct l' as [|y l']; [exists 0; apply Z; discriminate|].
  destruct (str_dec x y) as [<-|N]; [destruct (IH l') as [k K]; exists (S k); apply lcp_cons; exact K|]. exists 0. apply Z. cbn. congruence.
Qed.
Lemma blocks_none : forall c ti, prepare c = Ok ti -> (ti_blocks ti = [] <-> no_repetition (strings ti)).
Proof.
  intros c ti P. split.
  - intros E p q w A B. destruct (Nat.eq_dec p q) as [|N]; [assumption|exfalso].
    assert (X : exists k, is_lcp (skipn p (strings ti)) (skipn q (strings ti)) (S k)).
    { destruct (skipn p (strings ti)) as [|x l] eqn:SP; [apply (f_equal (fun l => nth_error l 0)) in SP; rewrite nth_error_skipn, Nat.add_0_r, A in SP; discriminate SP|].
      destruct (skipn q (strings ti)) as [|y l'] eqn:SQ; [apply (f_equal (fun l => nth_error l 0)) in SQ; rewrite nth_error_skipn, Nat.add_0_r, B in SQ; discriminate SQ|].
      apply (f_equal (fun l => nth_error l 0)) in SP. rewrite nth_error_skipn, Nat.add_0_r, A in SP. injection SP as <-.
      apply (f_equal (fun l => nth_error l 0)) in SQ. rewrite nth_error_skipn, Nat.add_0_r, B in SQ. injection SQ as <-.
      destruct (lcp_exists l l') as [k K]. exists k. apply lcp_cons. exact K. }
    destruct X as [k K]. destruct (C15_blocks_complete c ti p q (S k) P N ltac:(lia) K) as [b [ps [I _]]]. rewrite E in I. destruct I.
  - intros NR. destruct (ti_blocks ti) as [|b bs] eqn:E; [reflexivity|exfalso]. assert (I : In b (ti_blocks ti)) by (rewrite E; left; reflexivity).
    destruct (C14_blocks_sound c ti b P I) as [ps [_ [L [ND [BL H]]]]]. destruct ps as [|p [|q ps]]; cbn in L; try lia.
    assert (p = q); [|subst; inversion ND; subst; firstorder]. destruct (H p q) as [A B]; [left; reflexivity|right; left; reflexivity|].
    destruct (nth_error (strings ti) p) as [w|] eqn:W; [|apply nth_error_None in W; lia]. apply (NR p q w W). rewrite <- W.
    apply (f_equal (fun l => nth_error l 0)) in B. rewrite !nth_error_firstn in B. destruct (0 <? b_len b) eqn:Z; [|apply Nat.ltb_ge in Z; lia]. rewrite !nth_error_skipn, !Nat.add_0_r in B. symmetry. exact B.
Qed.

Theorem C83_selection : forall c ti w, prepare c = Ok ti -> NoDup (map w_sigil c) -> In w (ti_wits ti) ->
  match prepare_witness ti new_scorer w with
  | Ok sc => no_repetition (strings ti) /\ forall filt ta tb, scorer_match filt sc ta tb = (-1)%Z
  | Raise e => ~ no_repetition (strings ti) /\ e = AttributeError
  end.
Proof.
  intros c ti w P ND I. pose proof (prepare_index_ok c ti ND P) as IX. pose proof (blocks_none c ti P) as BN. destruct (wit_start c ti IX w I) as [p [P1 [P2 P3]]].
  assert (SE : split_lcp (ti_lcp ti) = Ok (ti_blocks ti)).
  { unfold prepare in P. apply bind_ok in P as [[[rg arr] out] [_ P]]. apply bind_ok in P as [sa [_ P]]. apply bind_ok in P as [bs [E P]]. apply bind_ok in P as [inst [_ P]]. injection P as <-. exact E. }
  unfold prepare_witness. rewrite P2. cbn [bind new_scorer sr_blocks]. unfold select_blocks. rewrite SE. cbn [bind]. destruct (ti_blocks ti) as [|b bs]; cbn [bind].
  - rewrite P3. cbn [bind]. split; [apply BN; reflexivity|]. intros filt ta tb.
    assert (Z : forall ts n, tokens_to_occurrences ts n (witness_occurrences (seq p (length (iw_toks w))) []) [] = []) by (induction ts as [|t ts IH]; intros n; [reflexivity|]; cbn [tokens_to_occurrences]; apply IH).
    unfold scorer_match. cbn [sr_map]. rewrite Z. reflexivity.
  - split; [|reflexivity]. intros C. apply BN in C. discriminate C.
Qed.
Print Assumptions C83_selection.

Theorem C83_selection_refuted : exists c ti w, prepare c = Ok ti /\ NoDup (map w_sigil c) /\ In w (ti_wits ti) /\ prepare_witness ti new_scorer w = Raise AttributeError.
Proof.
  exists three_witnesses. destruct (prepare three_witnesses) as [ti|] eqn:E; [|exfalso; vm_compute in E; discriminate E]. vm_compute in E. injection E as <-. eexists. eexists. split; [reflexivity|].
  split; [repeat constructor; cbn; intuition discriminate|]. split; [left; reflexivity|]. vm_compute. reflexivity.
Qed.
Print Assumptions C83_selection_refuted.

(** A scorer with the blocks "black dog" and "cat" of the first example. *)
Example C83_example : exists ti sc, prepare two_witnesses = Ok ti /\ apart [[5; 6; 9; 10]; [2; 13]] /\
  foldM (prepare_witness ti) (ti_wits ti) {| sr_blocks := [[5; 6; 9; 10]; [2; 13]]; sr_map := [] |} = Ok sc /\
  map (fun p => match nth_error (ti_array ti) (fst p), nth_error (ti_array ti) (snd p) with Some a, Some b => scorer_match None sc a b | _, _ => 7%Z end) [(2, 13); (5, 9); (6, 10); (1, 9); (0, 8)] = [0; 0; 0; -1; -1]%Z.
Proof.
  destruct (prepare two_witnesses) as [ti|] eqn:E; [|exfalso; vm_compute in E; discriminate E]. vm_compute in E. injection E as <-. eexists. eexists. split; [reflexivity|]. split; [|split; [vm_compute; reflexivity|vm_compute; reflexivity]].
  intros [|[|i]] [|[|j]] b b' x A B X Y; cbn in A, B; try reflexivity; try (destruct i; discriminate A); try (destruct j; discriminate B); injection A as <-; injection B as <-; cbn in X, Y; lia.
Qed.

(** ** C84: whatever the scorer is, when collate returns, every witness runs through the graph with all
    its tokens, in order, from start to end. *)
Lemma steps_hold : forall SC prep mf ws st st' done, holds SC st done -> NoDup (map iw_sigil (done ++ ws)) -> ~ In [] (map iw_sigil ws) -> (forall w, In w ws -> NoDup (map tk_pos (iw_toks w))) ->
  foldM (astar_step SC prep mf) ws st = Ok st' -> holds SC st' (done ++ ws).
Proof.
  intros SC prep mf. induction ws as [|w ws IH]; intros st st' done H N E D R; [injection R as <-; rewrite app_nil_r; exact H|]. cbn [foldM] in R. apply bind_ok in R as [st1 [R1 R2]].
  assert (PR : exists sc, prep (ac_scorer SC st) w = Ok sc) by (unfold astar_step in R1; apply bind_ok in R1 as [sc [Q _]]; eauto). destruct PR as [sc PR].
  assert (NW : ~ In (iw_sigil w) (map iw_sigil done)).
  { rewrite map_app in N. apply NoDup_app_iff in N as [_ [_ N]]. intros C. apply (N _ C). left. reflexivity. }
  pose proof (step_holds SC prep mf st done w sc H NW ltac:(intros C; apply E; left; exact C) (D w (or_introl eq_refl)) PR) as S1.
  destruct (align_astar token (mf sc) (ac_superbase SC st) (iw_toks w)) as [[pairs sb]|e]; [|rewrite S1 in R1; discriminate R1]. destruct S1 as [st2 [S1 [S2 _]]]. rewrite S1 in R1. injection R1 as <-.
  assert (Q : done ++ w :: ws = (done ++ [w]) ++ ws) by (rewrite <- app_assoc; reflexivity). rewrite Q in *. eapply IH; [exact S2|exact N|intros C; apply E; right; exact C|intros x X; apply D; right; exact X|exact R2].
Qed.

Lemma start_holds : forall SC (sc : SC) w, iw_sigil w <> [] -> NoDup (map tk_pos (iw_toks w)) -> exists g t2v, GraphModel.merge empty_graph (iw_sigil w) (iw_toks w) [] = Ok (g, t2v) /\
  holds SC {| ac_scorer := sc; ac_graph := g; ac_t2v := t2v; ac_superbase := iw_toks w |} [w].
Proof.
  intros SC sc w N D. assert (RE : forall sg v, reading_on empty_graph sg v = []) by (intros sg [|[|v]]; reflexivity).
  destruct (merge_threads empty_graph (iw_sigil w) (iw_toks w) []) as [g [new [M1 [M2 [M3 [M4 [M5 [M6 [M7 M8]]]]]]]]]; [cbn; unfold v_start, v_end; intuition lia|exact N|exact D|apply RE|intros t v _ H; discriminate H|].
  exists g, new. split; [exact M1|]. constructor; cbn [ac_graph ac_t2v ac_superbase].
  - exact M6.
  - intros x [<-|[]]. eauto.
  - intros sg v NI. rewrite M3; [apply RE|]. intros ->. apply NI. left. reflexivity.
  - intros k v H. eapply M7. apply (dget_In _ nat_eqb_ok). exact H.
  - intros t T. apply (dget_Some_key _ nat_eqb_ok). apply M8; [exact T|reflexivity].
Qed.

Theorem C84_threads : forall SC prep mf sc ws st, astar_collate SC prep mf empty_graph sc ws = Ok st ->
  NoDup (map iw_sigil ws) -> ~ In [] (map iw_sigil ws) -> (forall w, In w ws -> NoDup (map tk_pos (iw_toks w))) ->
  forall w, In w ws -> exists path, threaded (ac_graph SC st) (iw_sigil w) (iw_toks w) path.
Proof.
  intros SC prep mf sc ws st E N NE D. destruct ws as [|w ws]; [discriminate E|]. cbn [astar_collate] in E. apply bind_ok in E as [[g t2v] [E1 E]]. apply bind_ok in E as [sc1 [E2 E]].
  destruct (start_holds SC sc1 w) as [g' [t2v' [S1 S2]]]; [intros C; apply NE; left; exact C|apply D; left; reflexivity|]. rewrite E1 in S1. injection S1 as <- <-.
  pose proof (steps_hold SC prep mf ws _ st [w] S2 N ltac:(intros C; apply NE; right; exact C) ltac:(intros x X; apply D; right; exact X) E) as H. apply (h_thread _ _ _ H).
Qed.
Print Assumptions C84_threads.

(** If preparing a witness never fails, the only error is an IndexError (in particular a token of the
    superbase always has a vertex), and it occurs only with an empty superbase or an empty witness. *)
Lemma align_raises : forall T (mf : T -> T -> Z) wa wb, match align_astar T mf wa wb with Ok _ => (wa = [] <-> wb = []) | Raise e => e = IndexError /\ ~ (wa = [] <-> wb = []) end.
Proof.
  intros T mf wa wb. unfold align_astar. destruct wa as [|a wa]; destruct wb as [|b wb].
  - destruct (C43_path_partial T mf [] []) as [p [t [k [E _]]]]; [tauto|]. rewrite E. cbn [bind]. tauto.
  - rewrite search_empty_a by discriminate. cbn [bind]. split; [reflexivity|]. intros [H _]. discriminate (H eq_refl).
  - rewrite search_empty_b by discriminate. cbn [bind]. split; [reflexivity|]. intros [_ H]. discriminate (H eq_refl).
  - destruct (C43_path_partial T mf (a :: wa) (b :: wb)) as [p [t [k [E _]]]]; [split; discriminate|]. rewrite E. cbn [bind]. split; discriminate.
Qed.

Theorem C84_only_index_error : forall SC prep mf sc ws, (forall s w, exists s', prep s w = Ok s') ->
  NoDup (map iw_sigil ws) -> ~ In [] (map iw_sigil ws) -> (forall w, In w ws -> NoDup (map tk_pos (iw_toks w))) ->
  match astar_collate SC prep mf empty_graph sc ws with Ok _ => True | Raise e => e = IndexError end.
Proof.
  intros SC prep mf sc ws PR N NE D. destruct ws as [|w ws]; [reflexivity|]. cbn [astar_collate].
  destruct (PR sc w) as [sc1 P1]. destruct (start_holds SC sc1 w) as [g [t2v [S1 S2]]]; [intros C; apply NE; left; exact C|apply D; left; reflexivity|]. rewrite S1. cbn [bind]. rewrite P1. cbn [bind].
  assert (NE' : ~ In [] (map iw_sigil ws)) by (intros C; apply NE; right; exact C). assert (D' : forall x, In x ws -> NoDup (map tk_pos (iw_toks x))) by (intros x X; apply D; right; exact X). clear NE D S1 P1.
  change (w :: ws) with ([w] ++ ws) in N. revert S2 N NE' D'. generalize [w]. generalize {| ac_scorer := sc1; ac_graph := g; ac_t2v := t2v; ac_superbase := iw_toks w |}. clear - PR.
  induction ws as [|w ws IH]; intros st done H N E D; [exact I|]. cbn [foldM]. destruct (PR (ac_scorer SC st) w) as [s P1].
  assert (NW : ~ In (iw_sigil w) (map iw_sigil done)) by (rewrite map_app in N; apply NoDup_app_iff in N as [_ [_ N]]; intros C; apply (N _ C); left; reflexivity).
  pose proof (step_holds SC prep mf st done w s H NW ltac:(intros C; apply E; left; exact C) (D w (or_introl eq_refl)) P1) as S1. pose proof (align_raises token (mf s) (ac_superbase SC st) (iw_toks w)) as A.
  destruct (align_astar token (mf s) (ac_superbase SC st) (iw_toks w)) as [[pairs sb]|e]; [|rewrite S1; apply A]. destruct S1 as [st1 [S1 [S2 _]]]. rewrite S1. cbn [bind].
  apply (IH st1 (done ++ [w])); [exact S2|rewrite <- app_assoc; exact N|intros C; apply E; right; exact C|intros x X; apply D; right; exact X].
Qed.
Print Assumptions C84_only_index_error.

(** Two witnesses with tokens are always collated, if they can be prepared. *)
Theorem C84_two_partial : forall SC prep mf sc w1 w2, (forall s w, exists s', prep s w = Ok s') -> iw_sigil w1 <> iw_sigil w2 -> iw_sigil w1 <> [] -> iw_sigil w2 <> [] ->
  NoDup (map tk_pos (iw_toks w1)) -> NoDup (map tk_pos (iw_toks w2)) -> iw_toks w1 <> [] -> iw_toks w2 <> [] ->
  exists st, astar_collate SC prep mf empty_graph sc [w1; w2] = Ok st.
Proof.
  intros SC prep mf sc w1 w2 PR N N1 N2 D1 D2 T1 T2. cbn [astar_collate]. destruct (PR sc w1) as [sc1 P1]. destruct (start_holds SC sc1 w1 N1 D1) as [g [t2v [S1 S2]]]. rewrite S1. cbn [bind]. rewrite P1. cbn [bind].
  cbn [foldM]. destruct (PR sc1 w2) as [sc2 P2].
  pose proof (step_holds SC prep mf _ [w1] w2 sc2 S2 ltac:(intros [C|[]]; congruence) N2 D2 P2) as A. cbn [ac_superbase] in A. pose proof (align_raises token (mf sc2) (iw_toks w1) (iw_toks w2)) as B.
  destruct (align_astar token (mf sc2) (iw_toks w1) (iw_toks w2)) as [[pairs sb]|e]; [|exfalso; apply B; split; intros C; congruence]. destruct A as [st [A _]]. rewrite A. exists st. reflexivity.
Qed.
Print Assumptions C84_two_partial.

(** ... but three witnesses of one word each, all different, are not: the superbase has become empty. *)
Definition plain_scorer (_ : unit) (_ : iwitness) : res unit := Ok tt.
Definition same_words (_ : unit) (a b : token) : Z := if str_eqb (tk_str a) (tk_str b) then 0%Z else (-1)%Z.
Definition indexed (c : collation) : list iwitness := match prepare c with Ok ti => ti_wits ti | Raise _ => [] end.
Open Scope string_scope.
Theorem C84_three_refuted : exists c, NoDup (map w_sigil c) /\ (forall w, In w c -> w_toks w <> []) /\
  astar_collate unit plain_scorer same_words empty_graph tt (indexed c) = Raise IndexError.
Proof.
  exists [words "A" ["a"]; words "B" ["b"]; words "C" ["c"]]. split; [repeat constructor; cbn; intuition discriminate|]. split; [|vm_compute; reflexivity].
  intros w [<-|[<-|[<-|[]]]] H; discriminate H.
Qed.
Print Assumptions C84_three_refuted.

(** The graph can have a cycle: with the witnesses "a" and "a a" a vertex has an edge to itself. *)
Theorem C84_acyclic_refuted : exists c st v, NoDup (map w_sigil c) /\ astar_collate unit plain_scorer same_words empty_graph tt (indexed c) = Ok st /\ edge (ac_graph unit st) v v.
Proof.
  exists [words "A" ["a"]; words "B" ["a"; "a"]]. destruct (astar_collate unit plain_scorer same_words empty_graph tt (indexed [words "A" ["a"]; words "B" ["a"; "a"]])) as [st|] eqn:E; [|exfalso; vm_compute in E; discriminate E].
  vm_compute in E. injection E as <-. eexists. exists 2. split; [repeat constructor; cbn; intuition discriminate|]. split; [reflexivity|]. vm_compute. tauto.
Qed.
Print Assumptions C84_acyclic_refuted.

(** The aligner as it is constructed never gets that far: collate raises for every collation. *)
Theorem C84_always_raises_refuted : forall filt g ws,
  astar_aligner_collate filt g ws = Raise (match ws with [] => IndexError | _ => AttributeError end).
Proof.
  intros filt g [|w ws]; [reflexivity|]. unfold astar_aligner_collate. cbn [astar_collate]. unfold GraphModel.merge.
  assert (M : forall ts g sg v t2v, exists r, merge_tokens g sg ts [] v t2v = Ok r) by (induction ts as [|t ts IH]; intros; [eexists; reflexivity|]; cbn [merge_tokens dget add_vertex]; apply IH).
  destruct (M (iw_toks w) g (iw_sigil w) v_start []) as [[[g1 l] t2v] ->]. reflexivity.
Qed.
Print Assumptions C84_always_raises_refuted.

Example C84_example : exists st, astar_collate unit plain_scorer same_words empty_graph tt (indexed three_witnesses) = Ok st /\
  NoDup (map iw_sigil (indexed three_witnesses)) /\ map (fun v => map tk_str (reading_on (ac_graph unit st) (lit "B") v)) (seq 2 6) = [[lit "the"]; []; [lit "brown"]; [lit "fox"]; [lit "jumps"]; [lit "twice"]].
Proof.
  destruct (astar_collate unit plain_scorer same_words empty_graph tt (indexed three_witnesses)) as [st|] eqn:E; [|exfalso; vm_compute in E; discriminate E].
  vm_compute in E. injection E as <-. eexists. split; [reflexivity|]. split; [vm_compute; repeat constructor; cbn; intuition discriminate|]. vm_compute. reflexivity.
Qed.
