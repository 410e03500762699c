(** Stages of C107 that are always unambiguous. *)
From Verif Require Import Py TokenModel SuffixModel IndexModel GraphModel AlignModel TableModel NearModel ExportModel
  CollateModel Lib GraphSpec TableSpec CollateSpec ResultProof OutputProof ExportProof Samples TopoProof IdentProof WalkSpec PairSpec ChosenSpec PairProof Props_exact ProgSpec ProgProof.
From Coq Require Import QArith.
Open Scope list_scope.
Open Scope nat_scope.

Lemma progressive_on : forall texts, on_threads (progressive texts).
Proof.
  intros texts. unfold progressive. fold nothing. induction texts as [|text texts IH] using rev_ind; [intros n Hn; cbn in Hn; lia|].
  rewrite fold_left_app. cbn [fold_left]. set (A := fold_left add_text texts nothing) in *. unfold add_text. cbv zeta.
  set (L := map (old_node A text) (seq 0 (length text))). assert (LL : length text = length L) by (unfold L; rewrite map_length, seq_length; reflexivity).
  intros n Hn. cbn [node_words threads] in *. rewrite app_length in Hn. destruct (lt_dec n (length (node_words A))) as [Q|Q].
  - destruct (IH n Q) as [th [T1 T2]]. exists th. split; [apply in_or_app; left; exact T1|exact T2].
  - exists (with_new (length (node_words A)) L). split; [apply in_or_app; right; left; reflexivity|]. apply (with_new_all L text); [exact LL|lia].
Qed.

Lemma one_text : forall text, progressive [text] = {| node_words := text; threads := [seq 0 (length text)] |}.
Proof.
  intros text. unfold progressive. fold nothing. cbn [fold_left]. unfold add_text. cbv zeta.
  assert (EL : map (old_node nothing text) (seq 0 (length text)) = map (fun _ => None) text).
  { assert (GEN : forall n k, map (old_node nothing text) (seq k n) = repeat None n).
    { induction n as [|n IH]; intros k; [reflexivity|]. cbn [seq map repeat]. rewrite nothing_new, IH. reflexivity. }
    rewrite GEN. clear. induction text as [|s l IH]; [reflexivity|]. cbn [length repeat map]. f_equal. exact IH. }
  rewrite EL. cbn [nothing node_words threads app length]. rewrite new_all. do 2 f_equal.
  assert (G : forall k, with_new k (map (fun _ => None) text) = seq k (length text)).
  { clear. induction text as [|s l IH]; intros k; [reflexivity|]. cbn [map with_new length seq]. f_equal. apply IH. }
  apply G.
Qed.

Lemma line_places : forall (text : list str) f n, n < length text -> n < f -> place_of f (pairs (seq 0 (length text))) n = S n.
Proof.
  intros text. assert (PE : forall m n, In (m, n) (pairs (seq 0 (length text))) <-> n = S m /\ n < length text).
  { intros m n. split.
    - intros H. apply pairs_nth_inv in H as [i [A B]]. assert (i < length text) by (rewrite <- (seq_length (length text) 0); apply nth_error_Some; congruence).
      assert (S i < length text) by (rewrite <- (seq_length (length text) 0); apply nth_error_Some; congruence).
      rewrite nth_error_seq in A by lia. rewrite nth_error_seq in B by lia. injection A as <-. injection B as <-. lia.
    - intros [-> L]. apply (pairs_nth _ m); rewrite nth_error_seq by lia; reflexivity. }
  induction f as [|f IH]; intros n Hn Hf; [lia|]. cbn [place_of]. f_equal. destruct n as [|n].
  - apply Nat.le_0_r. apply list_max_bound. intros x Hx. apply in_map_iff in Hx as [[m n] [_ Hx]]. apply filter_In in Hx as [Hx Q]. apply PE in Hx as [Hx _]. cbn [snd] in Q. apply Nat.eqb_eq in Q. lia.
  - apply Nat.le_antisymm.
    + apply list_max_bound. intros x Hx. apply in_map_iff in Hx as [[m n'] [E Hx]]. apply filter_In in Hx as [Hx Q]. apply PE in Hx as [Hx Hx2]. cbn [snd fst] in *. apply Nat.eqb_eq in Q.
      rewrite IH in E by lia. lia.
    + apply list_max_in. apply in_map_iff. exists (n, S n). cbn [fst]. split; [apply IH; lia|]. apply filter_In. split; [apply PE; lia|]. cbn [snd]. apply Nat.eqb_refl.
Qed.
Theorem first_clear : forall text, clear (progressive [text]).
Proof.
  intros text n n' s E E' P. rewrite one_text in *. unfold place_in, followed in P. cbn [node_words threads flat_map] in *. rewrite app_nil_r in P.
  assert (n < length text) by (apply nth_error_Some; congruence). assert (n' < length text) by (apply nth_error_Some; congruence).
  rewrite !line_places in P by lia. lia.
Qed.

Section Two.
  Variables (cc : cclass) (topo : graph -> res (list vid)) (ratio : str -> str -> Q).
  Hypothesis TO : topo_ok topo.

  Lemma two_collated : forall w1 w2 rest o x, good_sigla (w1 :: w2 :: rest) -> o_filter o = None -> collate cc topo ratio (w1 :: w2 :: rest) o = Ok x ->
    good_sigla [w1; w2] /\ exists t, collate cc topo ratio [w1; w2] (plain_options "table") = Ok (OTable t).
  Proof.
    intros w1 w2 rest o x [ND NE] Hf H. assert (G2 : good_sigla [w1; w2]).
    { split; cbn [map] in *.
      - inversion ND as [|? ? N1 N2]; subst. inversion N2 as [|? ? N3 N4]; subst. constructor; [|constructor; [intros []|constructor]]. intros [Q|[]]. apply N1. left. exact Q.
      - intros [Q|[Q|[]]]; apply NE; [left|right; left]; exact Q. }
    split; [exact G2|]. destruct (collate_not_empty cc topo ratio _ o x H) as [_ EW]. unfold no_empty_witness in EW. inversion EW as [|? ? E1 EW']; subst. inversion EW' as [|? ? E2 _]; subst.
    assert (NC : ~ marker_clash None (w1 :: w2 :: rest)).
    { intros C. unfold collate in H. apply bind_ok in H as [[g r] [H _]]. rewrite <- Hf in C. apply (clash_fails cc topo ratio TO _ o (g, r) ND NE C H). }
    destruct (collate_succeeds cc topo ratio TO [w1; w2] (plain_options "table")) as [y Y]; try reflexivity.
    - discriminate.
    - exact G2.
    - constructor; [exact E1|constructor; [exact E2|constructor]].
    - intros [i [w [t [j [C1 [C2 [C3 [C4 [C5|[C5 _]]]]]]]]]]; [|cbn in C5; congruence]. apply NC. exists i, w, t, j. split; [|split; [exact C2|split; [exact C3|split; [cbn [length] in *; lia|left; exact C5]]]].
      destruct i as [|[|i]]; [exact C1|exact C1|destruct i; discriminate C1].
    - right. right. right. right. right. right. left. reflexivity.
    - intros Q. exfalso. cbn in Q. intuition discriminate.
    - exists (match y with OTable t => t | _ => {| t_columns := []; t_rows := [] |} end). rewrite Y. unfold collate in Y. apply bind_ok in Y as [[g r] [_ Y]]. unfold render in Y.
      cbn [o_output plain_options] in Y.
      replace (str_eqb (lit "table") (lit "svg")) with false in Y by reflexivity.
      replace (str_eqb (lit "table") (lit "svg_simple")) with false in Y by reflexivity.
      replace (str_eqb (lit "table") (lit "graph")) with false in Y by reflexivity.
      apply bind_ok in Y as [t [_ Y]].
      replace (str_eqb (lit "table") (lit "json")) with false in Y by reflexivity. cbn in Y. injection Y as <-. reflexivity.
  Qed.

  Lemma at_column_is : forall A th i n, (forall i j n n', i < j -> nth_error th i = Some n -> nth_error th j = Some n' -> place_in A n < place_in A n') ->
    nth_error th i = Some n -> at_column A th (place_in A n) = Some i.
  Proof.
    intros A th i n UP Hi. unfold at_column. destruct (List.find _ _) as [j|] eqn:F.
    - apply find_some in F as [_ F]. destruct (nth_error th j) as [m|] eqn:Hj; [|discriminate F]. apply Nat.eqb_eq in F. f_equal.
      destruct (lt_eq_lt_dec i j) as [[Q|Q]|Q]; [|congruence|].
      + pose proof (UP i j n m Q Hi Hj). lia.
      + pose proof (UP j i m n Q Hj Hi). lia.
    - exfalso. assert (IS : In i (seq 0 (length th))) by (apply in_seq; split; [lia|apply nth_error_Some; congruence]).
      pose proof (find_none _ _ F i IS) as FN. cbn beta in FN. rewrite Hi, Nat.eqb_refl in FN. discriminate FN.
  Qed.

  Theorem second_clear : forall w1 w2 rest o x, good_sigla (w1 :: w2 :: rest) -> o_filter o = None -> collate cc topo ratio (w1 :: w2 :: rest) o = Ok x ->
    no_doublets (readings w2) -> clear (progressive [readings w1; readings w2]).
  Proof.
    intros w1 w2 rest o x G Hf H ND. destruct (two_collated w1 w2 rest o x G Hf H) as [G2 [t HT]].
    assert (C1 : forall k, S k < length [w1; w2] -> clear (progressive (firstn (S k) (map readings [w1; w2])))).
    { intros k Hk. cbn [length] in Hk. assert (k = 0) by lia. subst k. apply first_clear. }
    destruct (prog_table cc topo ratio [w1; w2] (plain_options "table") t TO G2 eq_refl eq_refl eq_refl HT C1) as [LT [LR [UP [RW CO]]]].
    pose proof (C10_two_witnesses_partial cc topo ratio w1 w2 (plain_options "table") t TO G2 eq_refl eq_refl eq_refl ND HT) as EX.
    cbn [map] in *. set (A := progressive [readings w1; readings w2]) in *.
    pose proof (spelled [readings w1; readings w2]) as SP. fold A in SP. cbn [length] in *.
    destruct (threads A) as [|th1 [|th2 [|? ?]]] eqn:ET; try discriminate LT. clear LT.
    destruct (t_rows t) as [|r1 [|r2 [|? ?]]] eqn:ER; try discriminate LR. clear LR.
    inversion SP as [|? ? ? ? SP1 SP']; subst. inversion SP' as [|? ? ? ? SP2 _]; subst. clear SP SP'.
    destruct (RW 0 w1 th1 r1 eq_refl eq_refl eq_refl) as [_ R1]. destruct (RW 1 w2 th2 r2 eq_refl eq_refl eq_refl) as [_ R2]. clear RW.
    assert (UP1 : forall i j n n', i < j -> nth_error th1 i = Some n -> nth_error th1 j = Some n' -> place_in A n < place_in A n').
    { intros i j n n'. apply UP. left. reflexivity. }
    assert (UP2 : forall i j n n', i < j -> nth_error th2 i = Some n -> nth_error th2 j = Some n' -> place_in A n < place_in A n').
    { intros i j n n'. apply UP. right. left. reflexivity. }
    assert (SAME : forall th, (forall i j n n', i < j -> nth_error th i = Some n -> nth_error th j = Some n' -> place_in A n < place_in A n') ->
       forall n n', In n th -> In n' th -> place_in A n = place_in A n' -> n = n').
    { intros th U n n' I I' P. apply In_nth_error in I as [i I], I' as [j I']. destruct (lt_eq_lt_dec i j) as [[Q|Q]|Q]; [|congruence|].
      - pose proof (U i j n n' Q I I'). lia.
      - pose proof (U j i n' n Q I' I). lia. }
    assert (PB : forall n, In n (nodes A) -> 1 <= place_in A n <= breadth A).
    { intros n Hn. split; [|apply list_max_in; apply in_map; exact Hn]. unfold place_in. apply in_seq in Hn. destruct (length (node_words A)); [lia|]. cbn [place_of]. lia. }
    assert (MAIN : forall n n' s i j, nth_error th1 i = Some n -> nth_error th2 j = Some n' -> nth_error (node_words A) n = Some s -> nth_error (node_words A) n' = Some s ->
      place_in A n = place_in A n' -> n = n').
    { intros n n' s i j Hi Hj E E' P. assert (NN : In n (nodes A)) by (apply in_seq; split; [lia|apply nth_error_Some; congruence]).
      destruct (PB n NN) as [B1 B2]. set (x0 := place_in A n) in *.
      assert (NS : nth_error (seq 1 (breadth A)) (x0 - 1) = Some x0) by (rewrite nth_error_seq by lia; f_equal; lia).
      assert (S1 : nth_error (map (at_column A th1) (seq 1 (breadth A))) (x0 - 1) = Some (Some i)) by (rewrite nth_error_map, NS; cbn [option_map]; f_equal; apply (at_column_is A th1 i n UP1 Hi)).
      assert (S2 : nth_error (map (at_column A th2) (seq 1 (breadth A))) (x0 - 1) = Some (Some j)).
      { rewrite nth_error_map, NS. cbn [option_map]. f_equal. rewrite P. apply (at_column_is A th2 j n' UP2 Hj). }
      destruct (Forall2_at_l _ _ _ _ _ R1 S1) as [c1 [K1 Q1]]. destruct (Forall2_at_l _ _ _ _ _ R2 S2) as [c2 [K2 Q2]].
      cbn [shows] in Q1, Q2. destruct c1 as [ts1|]; [|contradiction]. destruct c2 as [ts2|]; [|contradiction].
      destruct Q1 as [t1 [u1 [A1 [-> [B3 _]]]]]. destruct Q2 as [t2 [u2 [A2 [-> [B4 _]]]]].
      assert (W1 : t0_str t1 = s).
      { assert (Q : nth_error (map Some (readings w1)) i = Some (Some s)) by (rewrite <- SP1, nth_error_map, Hi; cbn [option_map]; congruence).
        unfold readings in Q. rewrite !nth_error_map, A1 in Q. cbn [option_map] in Q. congruence. }
      assert (W2 : t0_str t2 = s).
      { assert (Q : nth_error (map Some (readings w2)) j = Some (Some s)) by (rewrite <- SP2, nth_error_map, Hj; cbn [option_map]; congruence).
        unfold readings in Q. rewrite !nth_error_map, A2 in Q. cbn [option_map] in Q. congruence. }
      destruct (Forall2_at_l _ _ _ _ _ CO NS) as [col [KC VC]].
      assert (VF : c_variant col = false).
      { destruct (c_variant col) eqn:V; [|reflexivity]. exfalso. apply (proj1 (EX _ col KC)) in V as [[ro [I N]]|[ro1 [ro2 [x1 [x2 [I1 [I2 [N1 [N2 D]]]]]]]]].
        - destruct I as [<-|[<-|[]]]; congruence.
        - destruct I1 as [<-|[<-|[]]], I2 as [<-|[<-|[]]]; try congruence.
          + rewrite K1 in N1. rewrite K2 in N2. injection N1 as <-. injection N2 as <-. apply D. cbn [map]. congruence.
          + rewrite K2 in N1. rewrite K1 in N2. injection N1 as <-. injection N2 as <-. apply D. cbn [map]. congruence. }
      apply VC in VF as [m [PM IM]]. assert (m = n). { apply (SAME th1 UP1); [apply IM; left; reflexivity|apply nth_error_In in Hi; exact Hi|exact PM]. }
      assert (m = n'). { apply (SAME th2 UP2); [apply IM; right; left; reflexivity|apply nth_error_In in Hj; exact Hj|congruence]. } congruence. }
    intros n n' s E E' P. pose proof (progressive_on [readings w1; readings w2]) as ON. fold A in ON.
    destruct (ON n) as [th [T I]]; [apply nth_error_Some; congruence|]. destruct (ON n') as [th' [T' I']]; [apply nth_error_Some; congruence|]. rewrite ET in T, T'.
    destruct T as [<-|[<-|[]]], T' as [<-|[<-|[]]].
    - apply (SAME th1 UP1); assumption.
    - apply In_nth_error in I as [i I], I' as [j I']. apply (MAIN n n' s i j); assumption.
    - symmetry. apply In_nth_error in I as [i I], I' as [j I']. apply (MAIN n' n s j i); congruence.
    - apply (SAME th2 UP2); assumption.
  Qed.
End Two.
