(** Property C10, continued: for two witnesses the status of a column is exact. *)
From Verif Require Import Py TokenModel SuffixModel IndexModel GraphModel AlignModel TableModel NearModel ExportModel
  CollateModel Lib GraphSpec TableSpec CollateSpec Samples TopoProof PairSpec PairProof Props_pair.
From Coq Require Import QArith Sorted.
Open Scope list_scope.
Open Scope nat_scope.

Lemma gap_length : forall i x j y, length (gap i x j y) = Nat.max (x - i) (y - j).
Proof. intros. unfold gap. rewrite map_length, seq_length. reflexivity. Qed.
Lemma gap_both : forall i x j y k a b, nth_error (gap i x j y) k = Some (Some a, Some b) -> a = i + k /\ b = j + k /\ a < x /\ b < y.
Proof.
  intros i x j y k a b H. unfold gap in H. rewrite nth_error_map in H. destruct (nth_error (seq _ _) k) as [z|] eqn:E; [|discriminate]. cbn [option_map] in H.
  assert (z = k) by (apply nth_error_nth with (d := 0) in E as E'; rewrite seq_nth in E'; [lia|]; rewrite <- (seq_length (Nat.max (x - i) (y - j)) 0); apply nth_error_Some; congruence). subst z.
  destruct (i + k <? x) eqn:E1; [|discriminate]. destruct (j + k <? y) eqn:E2; [|discriminate]. injection H as <- <-. apply Nat.ltb_lt in E1, E2. lia.
Qed.

(** Two tokens side by side that are no pair could be one without any other change. *)
Lemma pair_inserted : forall P i j n m k x y, StronglySorted (fun p q => fst p < fst q /\ snd p < snd q) P ->
  (forall p, In p P -> i <= fst p < n /\ j <= snd p < m) -> nth_error (layout i j n m P) k = Some (Some x, Some y) -> ~ In (x, y) P ->
  i <= x < n /\ j <= y < m /\ exists P', StronglySorted (fun p q => fst p < fst q /\ snd p < snd q) P' /\ (forall p, In p P' -> p = (x, y) \/ In p P) /\
    length P' = S (length P) /\ length (layout i j n m P') = length (layout i j n m P).
Proof.
  induction P as [|[a b] P IH]; intros i j n m k x y S B H N; cbn [layout] in H.
  - apply gap_both in H as [-> [-> [H1 H2]]]. split; [lia|]. split; [lia|]. exists [(i + k, j + k)]. split; [repeat constructor|]. split; [intros p [<-|[]]; auto|]. split; [reflexivity|].
    cbn [layout]. rewrite app_length. cbn [length]. rewrite !gap_length. lia.
  - pose proof (B (a, b) (or_introl eq_refl)) as [B1 B2]. cbn [fst snd] in B1, B2. apply StronglySorted_inv in S as [S1 S2]. rewrite Forall_forall in S2.
    destruct (Nat.lt_ge_cases k (length (gap i a j b))) as [L|L].
    + rewrite nth_error_app1 in H by assumption. apply gap_both in H as [-> [-> [H1 H2]]]. split; [lia|]. split; [lia|]. exists ((i + k, j + k) :: (a, b) :: P).
      split; [constructor; [constructor; [assumption|apply Forall_forall; assumption]|]|].
      { apply Forall_forall. intros p [<-|Hp]; cbn [fst snd]; [lia|]. specialize (S2 p Hp). cbn in S2. lia. }
      split; [intros p [<-|Hp]; auto|]. split; [reflexivity|]. cbn [layout]. rewrite !app_length. cbn [length]. rewrite app_length. cbn [length]. rewrite !gap_length. lia.
    + rewrite nth_error_app2 in H by assumption. destruct (k - length (gap i a j b)) as [|k'].
      { cbn in H. injection H as <- <-. exfalso. apply N. left. reflexivity. }
      cbn [nth_error] in H. destruct (IH (S a) (S b) n m k' x y S1) as [X [Y [P' [Q1 [Q2 [Q3 Q4]]]]]]; [|exact H|intros C; apply N; right; exact C|].
      { intros p Hp. pose proof (S2 p Hp) as Z. cbn in Z. specialize (B p (or_intror Hp)). lia. }
      split; [lia|]. split; [lia|]. exists ((a, b) :: P'). split; [constructor; [assumption|]|].
      { apply Forall_forall. intros p Hp. destruct (Q2 p Hp) as [->|Hp']; cbn [fst snd]; [lia|]. apply S2. assumption. }
      split; [intros p [<-|Hp]; [right; left; reflexivity|]; destruct (Q2 p Hp); [auto|right; right; assumption]|]. split; [cbn [length]; lia|].
      cbn [layout]. rewrite !app_length. cbn [length]. lia.
Qed.

(** ** C10 for two witnesses: without segmentation, near matching and properties filter, and where
    no two neighbouring tokens of the second witness are equal, a column is marked variant exactly
    if one of the witnesses has no token there or the two readings differ. *)
Theorem C10_two_witnesses_partial : forall cc topo ratio w1 w2 o t, topo_ok topo -> good_sigla [w1; w2] ->
  o_segmentation o = false -> o_near o = false -> o_filter o = None -> no_doublets (readings w2) ->
  collate cc topo ratio [w1; w2] o = Ok (OTable t) ->
  forall i col, nth_error (t_columns t) i = Some col ->
    (c_variant col = true <->
     (exists ro, In ro (t_rows t) /\ nth_error (r_cells ro) i = Some None) \/
     (exists ro1 ro2 ts1 ts2, In ro1 (t_rows t) /\ In ro2 (t_rows t) /\
        nth_error (r_cells ro1) i = Some (Some ts1) /\ nth_error (r_cells ro2) i = Some (Some ts2) /\ map tk_str ts1 <> map tk_str ts2)).
Proof.
  intros cc topo ratio w1 w2 o t TO G Hs Hn Hf ND H i col Hc.
  destruct (C60_two_witnesses cc topo ratio w1 w2 o t TO G Hs Hn H) as [P [[A1 A2] [[[c1 [c2 [R [F1 F2]]]] FC] [SC [OPT _]]]]]. specialize (OPT Hf ND).
  set (C := layout 0 0 (length (w_toks w1)) (length (w_toks w2)) P) in *.
  destruct (nth_error C i) as [[e1 e2]|] eqn:EC; [|exfalso].
  2:{ apply nth_error_None in EC. assert (L : length C = length (t_columns t)) by (clear - FC; induction FC; cbn; congruence).
      assert (i < length (t_columns t)) by (apply nth_error_Some; congruence). lia. }
  assert (FN : forall (A B : Type) (Q : A -> B -> Prop) l l', Forall2 Q l l' -> forall j a, nth_error l j = Some a -> exists b, nth_error l' j = Some b /\ Q a b).
  { intros A B Q l l' FF. induction FF as [|a b l l' q FF IH]; intros [|j] a' E; try discriminate; [injection E as <-; exists b; auto|]. apply IH. exact E. }
  destruct (FN _ _ _ _ _ FC i _ EC) as [col' [Hc' V]]. rewrite Hc in Hc'. injection Hc' as <-.
  assert (M1 : nth_error (map fst C) i = Some e1) by (rewrite nth_error_map, EC; reflexivity).
  assert (M2 : nth_error (map snd C) i = Some e2) by (rewrite nth_error_map, EC; reflexivity).
  destruct (FN _ _ _ _ _ F1 i _ M1) as [x1 [X1 S1]]. destruct (FN _ _ _ _ _ F2 i _ M2) as [x2 [X2 S2]].
  rewrite R. destruct e1 as [a|]; destruct e2 as [b|]; cbn [shows] in S1, S2.
  - destruct x1 as [ts1|]; [|contradiction]. destruct x2 as [ts2|]; [|contradiction].
    destruct S1 as [t1 [k1 [T1 [-> [CF1 _]]]]]. destruct S2 as [t2 [k2 [T2 [-> [CF2 _]]]]].
    assert (D : (c_variant col = false <-> t0_str t1 = t0_str t2)).
    { rewrite V. split.
      - intros [x [y [E IP]]]. injection E as <- <-. destruct (A2 a b IP) as [s [E1 E2]]. unfold readings in E1, E2. rewrite nth_error_map, T1 in E1. rewrite nth_error_map, T2 in E2. cbn in E1, E2. congruence.
      - intros E. exists a, b. split; [reflexivity|].
        assert (DEC : In (a, b) P \/ ~ In (a, b) P).
        { destruct (in_dec (fun p q : nat * nat => ltac:(decide equality; apply Nat.eq_dec)) (a, b) P); auto. }
        destruct DEC as [IP|NI]; [exact IP|exfalso].
        assert (B : forall p, In p P -> 0 <= fst p < length (w_toks w1) /\ 0 <= snd p < length (w_toks w2)).
        { intros [p q] Hp. destruct (A2 p q Hp) as [s [E1 E2]]. unfold readings in E1, E2. cbn [fst snd].
          assert (p < length (map t0_str (w_toks w1))) by (apply nth_error_Some; congruence). assert (q < length (map t0_str (w_toks w2))) by (apply nth_error_Some; congruence).
          rewrite map_length in *. lia. }
        destruct (pair_inserted P 0 0 (length (w_toks w1)) (length (w_toks w2)) i a b A1 B EC NI) as [_ [_ [P' [Q1 [Q2 [Q3 Q4]]]]]].
        assert (AG : agreeing (readings w1) (readings w2) P').
        { split; [exact Q1|]. intros p q Hp. destruct (Q2 _ Hp) as [E'|Hp']; [|apply A2; exact Hp']. injection E' as -> ->. exists (t0_str t1). unfold readings.
          rewrite !nth_error_map, T1, T2. cbn. split; [reflexivity|]. rewrite E. reflexivity. }
        specialize (OPT P' AG). rewrite SC in OPT. unfold balance in OPT. fold C in OPT, Q4. rewrite Q3, Q4 in OPT. lia. }
    split.
    + intros VT. right. exists {| r_header := w_sigil w1; r_cells := c1 |}, {| r_header := w_sigil w2; r_cells := c2 |}, [k1], [k2].
      split; [left; reflexivity|]. split; [right; left; reflexivity|]. split; [exact X1|]. split; [exact X2|]. cbn [map]. rewrite CF1, CF2. intros Q. injection Q as Q. apply D in Q. congruence.
    + intros Q. destruct (c_variant col) eqn:VC; [reflexivity|exfalso]. pose proof (proj1 D eq_refl) as E.
      destruct Q as [[ro [IR NR]]|[ro1 [ro2 [u1 [u2 [I1 [I2 [N1 [N2 NE]]]]]]]]].
      * destruct IR as [<-|[<-|[]]]; cbn [r_cells] in NR; congruence.
      * apply NE. destruct I1 as [<-|[<-|[]]]; destruct I2 as [<-|[<-|[]]]; cbn [r_cells] in N1, N2; (rewrite X1 in N1 || rewrite X2 in N1); (rewrite X1 in N2 || rewrite X2 in N2); injection N1 as <-; injection N2 as <-; cbn [map]; congruence.
  - destruct x2; [contradiction|]. split; [intros _; left|].
    + eexists. split; [right; left; reflexivity|exact X2].
    + intros _. destruct (c_variant col); [reflexivity|]. destruct (proj1 V eq_refl) as [x [y [E _]]]. discriminate.
  - destruct x1; [contradiction|]. split; [intros _; left|].
    + eexists. split; [left; reflexivity|exact X1].
    + intros _. destruct (c_variant col); [reflexivity|]. destruct (proj1 V eq_refl) as [x [y [E _]]]. discriminate.
  - destruct x1; [contradiction|]. split; [intros _; left|].
    + eexists. split; [left; reflexivity|exact X1].
    + intros _. destruct (c_variant col); [reflexivity|]. destruct (proj1 V eq_refl) as [x [y [E _]]]. discriminate.
Qed.
Print Assumptions C10_two_witnesses_partial.

(** The condition on neighbouring tokens is needed: where the second witness repeats a word, the
    two witnesses can both have the word b in one column that is marked variant. *)
Theorem C10_two_doublets_refuted : exists w1 w2 t i col, good_sigla [w1; w2] /\
  collate ascii_cc kahn sample_ratio [w1; w2] (plain_options "table") = Ok (OTable t) /\
  nth_error (t_columns t) i = Some col /\ c_variant col = true /\
  forall ro, In ro (t_rows t) -> exists ts, nth_error (r_cells ro) i = Some (Some ts) /\ map tk_str ts = [lit "b"].
Proof.
  exists (words "A" ["c"; "c"; "c"; "c"; "c"; "c"; "b"; "a"]), (words "B" ["a"; "a"; "a"; "a"; "a"; "a"; "b"; "d"; "a"; "a"]).
  destruct (collate ascii_cc kahn sample_ratio [words "A" ["c"; "c"; "c"; "c"; "c"; "c"; "b"; "a"]; words "B" ["a"; "a"; "a"; "a"; "a"; "a"; "b"; "d"; "a"; "a"]] (plain_options "table")) as [x|] eqn:E; [|exfalso; vm_compute in E; discriminate].
  vm_compute in E. injection E as <-. eexists. exists 6. eexists.
  split; [split; [repeat constructor; cbn; intuition discriminate|cbn; intuition discriminate]|].
  split; [reflexivity|]. split; [reflexivity|]. split; [reflexivity|].
  intros ro Hr. cbn [t_rows In] in Hr. repeat (destruct Hr as [<-|Hr]; [eexists; split; reflexivity|]). contradiction.
Qed.
Print Assumptions C10_two_doublets_refuted.

(** The hypotheses are met by witnesses with a substitution, an omission and an addition. *)
Example C10_two_witnesses_example : exists t, good_sigla [left_text; right_text] /\ no_doublets (readings right_text) /\
  collate ascii_cc kahn sample_ratio [left_text; right_text] (plain_options "table") = Ok (OTable t) /\
  In true (map c_variant (t_columns t)) /\ In false (map c_variant (t_columns t)).
Proof.
  destruct (collate ascii_cc kahn sample_ratio [left_text; right_text] (plain_options "table")) as [x|] eqn:E; [|exfalso; vm_compute in E; discriminate].
  vm_compute in E. injection E as <-. eexists.
  split; [split; [repeat constructor; cbn; intuition discriminate|cbn; intuition discriminate]|].
  split; [apply no_doublets_dec; intros k Hk; cbn in Hk; repeat (destruct k as [|k]; [discriminate|]); lia|]. split; [reflexivity|].
  split; cbn; tauto.
Qed.
