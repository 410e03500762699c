(** Near matching with any number of witnesses: what a row shows. *)
From Verif Require Import Py TokenModel SuffixModel IndexModel GraphModel AlignModel TableModel NearModel ExportModel
  CollateModel Lib GraphSpec GraphProof MergeProof RankProof AlignerProof TableSpec TableProof AlignProof IndexProof CollateProof CollateSpec JoinProof ResultProof StageProof OutputProof NearProof NearRowSpec.
From Coq Require Import Permutation Relations QArith.
Open Scope list_scope.
Open Scope nat_scope.

Lemma stamp_positions : forall sg ts pos, map tk_pos (stamp sg pos ts) = seq pos (length ts).
Proof. intros sg ts. induction ts as [|t ts IH]; intros pos; [reflexivity|]. cbn [stamp map tk_pos length seq]. rewrite IH, Nat.add_1_r. reflexivity. Qed.

Lemma stamped_parts : forall c pos W, Forall2 path_for (stamped pos c) W ->
  Forall2 (fun w p => fst p = w_sigil w /\ Forall2 (came_from (w_sigil w)) (w_toks w) (flat_map snd (snd p)) /\ NoDup (map tk_pos (flat_map snd (snd p)))) c W.
Proof.
  induction c as [|w c IH]; intros pos W F; inversion F as [|iw p l W' [P1 [path [P2 P3]]] F']; subst; constructor; [|apply (IH _ _ F')].
  cbn [iw_sigil iw_toks] in *. split; [assumption|].
  assert (E : flat_map snd (snd p) = stamp (w_sigil w) pos (w_toks w)).
  { rewrite P3. unfold steps. clear - P2. revert path P2. generalize (stamp (w_sigil w) pos (w_toks w)). induction l as [|t l IH]; intros [|v path] L; try discriminate; [reflexivity|].
    cbn [map combine flat_map snd app]. f_equal. apply IH. cbn [length] in L. lia. }
  rewrite E. split; [apply stamp_came_from|]. rewrite stamp_positions. apply seq_NoDup.
Qed.

Lemma flat_single : forall {A B} (l : list (A * list B)), (forall x, In x l -> exists b, snd x = [b]) ->
  length (flat_map snd l) = length l /\ forall i x b, nth_error l i = Some x -> snd x = [b] -> nth_error (flat_map snd l) i = Some b.
Proof.
  intros A B l. induction l as [|x l IH]; intros H; [split; [reflexivity|intros [|i] x b E; discriminate]|].
  destruct (H x (or_introl eq_refl)) as [b E]. destruct IH as [I1 I2]; [intros y Hy; apply H; right; exact Hy|].
  cbn [flat_map]. rewrite E. cbn [app length]. split; [lia|]. intros [|i] y b' Hy Hb; cbn [nth_error] in *.
  - injection Hy as <-. rewrite E in Hb. congruence.
  - apply (I2 i y b' Hy Hb).
Qed.

Section Rows.
  Variables (cc : cclass) (topo : graph -> res (list vid)) (ratio : str -> str -> Q).
  Hypothesis TO : topo_ok topo.

  Theorem near_rows : forall c o t, good_sigla c -> o_near o = true -> collate cc topo ratio c o = Ok (OTable t) ->
    Forall2 (fun w ro => r_header ro = w_sigil w /\ exists tks cols, shown_row (w_sigil w) (w_toks w) (r_cells ro) tks cols) c (t_rows t).
  Proof.
    intros c o t [ND NG] Hn H. destruct (collate_table_inv cc topo ratio c o t H) as [g2 [r2 [H1 H2]]].
    unfold collate_graph in H1. apply bind_ok in H1 as [[ti g0] [A H1]]. apply bind_ok in H1 as [r1 [R H1]].
    destruct (o_astar o); [discriminate|]. apply bind_ok in H1 as [[g3 r3] [NM H1]]. rewrite Hn in NM. destruct (o_segmentation o); [discriminate|]. injection H1 as -> ->.
    destruct (aligner_spec _ _ _ _ _ _ TO ND NG A) as [IX [_ [st' [W [E [AL [NW CA]]]]]]].
    pose proof (al_graph _ _ _ _ _ AL) as GI. rewrite E in GI.
    pose proof (al_paths _ _ _ _ _ AL) as PF. pose proof (one_token_paths _ _ PF) as ONE. rewrite (ix_wits _ _ IX) in PF. apply stamped_parts in PF.
    destruct (ranking_spec topo g0 W TO GI) as [rk [m [l [_ [R1 RO]]]]]. rewrite R1 in R. injection R as <-.
    destruct (near_match_total g0 W rk m l GI NW RO topo ratio TO) as [g3 [r3 [N1 [N2 N3]]]]. rewrite NM in N1. injection N1 as <- <-. destruct N2 as [N2 _].
    destruct (placed_ranks g0 W rk m l r2 GI NW RO N3) as [PK M2].
    assert (HD : forall k vs, In (k, vs) (by_rank r2) <-> dget Nat.eqb k (by_rank r2) = Some vs).
    { intros k vs. split; [|apply (dget_In _ nat_eqb_ok)]. intros I. apply (In_dget _ nat_eqb_ok); [|assumption]. rewrite (pd_keys _ _ _ _ N3). apply seq_NoDup. }
    assert (RI : ranks_in (vertices g2) r2).
    { intros k vs I v Hv. apply HD in I. destruct (pd_lists _ _ _ _ N3 k vs I) as [_ B]. destruct (pd_at _ _ _ _ N3 v k (B v Hv)) as [Q _].
      change (vertices g2) with (vertices (without_near g2)). rewrite N2. exact Q. }
    assert (GN : graph_of (without_near g2) W) by (rewrite N2; exact GI).
    rewrite (table_weak g2 W GN _ r2 RI) in H2. injection H2 as <-. unfold wtable. cbn [t_rows].
    set (L := filter (fun kv => existsb inner (snd kv)) (by_rank r2)) in *.
    set (cols := map (fun kv => wcol W (length (map w_sigil c)) (snd kv)) L).
    assert (LL : forall k vs, nth_error L k = Some vs -> fst vs = S k /\ k < m - 2 /\ dget Nat.eqb (S k) (by_rank r2) = Some (snd vs)).
    { intros k [q vs] N. pose proof (map_nth_error fst _ _ N) as X. rewrite PK in X. cbn [fst snd] in *.
      assert (K : k < m - 2) by (rewrite <- (seq_length (m - 2) 1); apply nth_error_Some; rewrite X; discriminate).
      pose proof (nth_error_nth _ _ 0 X) as Y. rewrite seq_nth in Y by assumption. subst q. split; [reflexivity|]. split; [assumption|].
      apply HD. apply nth_error_In in N. apply filter_In in N as [N _]. exact N. }
    assert (LN : length L = m - 2) by (rewrite <- (map_length fst), PK; apply seq_length).
    set (rank := fun v => match dget Nat.eqb v (by_vertex r2) with Some k => k | None => 0 end).
    assert (ROW : forall w p, In p W -> fst p = w_sigil w -> Forall2 (came_from (w_sigil w)) (w_toks w) (flat_map snd (snd p)) -> NoDup (map tk_pos (flat_map snd (snd p))) ->
      shown_row (w_sigil w) (w_toks w) (r_cells (construct_row cols (w_sigil w))) (flat_map snd (snd p)) (map (fun s => rank (fst s) - 1) (snd p))).
    { intros w p Hp Ep CF NP.
      assert (SI : forall x, In x (snd p) -> exists b, snd x = [b]).
      { intros [v ts] Hx. pose proof (ONE p v ts Hp Hx) as Q. cbn [snd]. destruct ts as [|b [|]]; try discriminate Q. eauto. }
      destruct (flat_single (snd p) SI) as [F1 F2].
      assert (VR : forall v ts, In (v, ts) (snd p) -> exists k, dget Nat.eqb v (by_vertex r2) = Some (S k) /\ k < m - 2 /\ rank v - 1 = k).
      { intros v ts Hx. destruct (gi_on _ _ GI p v ts Hp Hx) as [V1 V2]. destruct (pd_verts _ _ _ _ N3 v V1) as [k D].
        assert (IV : inner v = true).
        { destruct (inner v) eqn:IV; [reflexivity|]. exfalso. pose proof (tokens_on_ends g0 W v GI IV) as TE.
          assert (IT : In (fst p, ts) (tokens_on W v)); [|rewrite TE in IT; destruct IT]. apply tokens_on_In. exists p. split; [exact Hp|]. split; [reflexivity|].
          apply (In_dget _ nat_eqb_ok); [apply (path_uniq g0 W GI); exact Hp|exact Hx]. }
        destruct (pd_inner _ _ _ _ N3 v k IV D) as [B1 B2]. exists (k - 1). unfold rank. rewrite D. split; [f_equal; lia|]. split; lia. }
      constructor; [exact CF|exact NP|rewrite map_length, F1; reflexivity| |].
      - intros k Hk. apply in_map_iff in Hk as [[v ts] [<- Hx]]. destruct (VR v ts Hx) as [k [_ [K1 K2]]]. cbn [fst]. rewrite K2.
        cbn [construct_row r_cells]. unfold cols. rewrite !map_length, LN. exact K1.
      - intros k ce Hk. cbn [construct_row r_cells] in Hk. unfold cols in Hk. rewrite map_map, nth_error_map in Hk.
        destruct (nth_error L k) as [[q vs]|] eqn:EL; [|discriminate]. cbn [option_map snd wcol c_cells] in Hk. injection Hk as <-.
        destruct (LL k _ EL) as [_ [K1 K2]]. cbn [snd] in K2. destruct (pd_lists _ _ _ _ N3 _ _ K2) as [_ B2].
        destruct (dget str_eqb (w_sigil w) (put_tokens [] (flat_map (tokens_on W) vs))) as [ts|] eqn:D.
        + apply (dget_In _ str_eqb_ok) in D. apply wcells_In in D as [v [q' [D1 [D2 [D3 D4]]]]].
          assert (q' = p) by (apply (sigil_unique g0 W GI); auto; congruence). subst q'.
          destruct (SI _ D4) as [tk ET]. cbn [snd] in ET. subst ts. destruct (In_nth_error _ _ D4) as [i EI].
          exists i, tk. split; [apply (F2 i _ _ EI eq_refl)|]. split; [|reflexivity]. rewrite nth_error_map, EI. cbn [option_map fst]. f_equal.
          unfold rank. rewrite (B2 v D1). lia.
        + intros C. apply in_map_iff in C as [[v ts] [EK Hx]]. destruct (VR v ts Hx) as [k' [V1 [V2 V3]]]. cbn [fst] in EK. rewrite V3 in EK. subst k'.
          destruct (pd_at _ _ _ _ N3 v _ V1) as [_ [vs' [Q1 Q2]]]. rewrite K2 in Q1. injection Q1 as <-.
          apply (dget_None _ str_eqb_ok) in D. apply D. apply put_tokens_keys. right. apply in_map_iff. exists (w_sigil w, ts). split; [reflexivity|].
          apply in_flat_map. exists v. split; [exact Q2|]. apply tokens_on_In. exists p. split; [exact Hp|]. split; [exact Ep|].
          apply (In_dget _ nat_eqb_ok); [apply (path_uniq g0 W GI); exact Hp|exact Hx]. }
    clearbody cols.
    assert (G : forall C P, Forall2 (fun w p => fst p = w_sigil w /\ Forall2 (came_from (w_sigil w)) (w_toks w) (flat_map snd (snd p)) /\ NoDup (map tk_pos (flat_map snd (snd p)))) C P ->
      (forall p, In p P -> In p W) ->
      Forall2 (fun w ro => r_header ro = w_sigil w /\ exists tks cls, shown_row (w_sigil w) (w_toks w) (r_cells ro) tks cls) C (map (construct_row cols) (map w_sigil C))).
    { intros C P FF. induction FF as [|w p C P [C1 [C2 C3]] FF IH]; intros I; cbn [map]; constructor.
      - split; [reflexivity|]. exists (flat_map snd (snd p)), (map (fun s => rank (fst s) - 1) (snd p)). apply ROW; auto. apply I. left. reflexivity.
      - apply IH. intros q Hq. apply I. right. exact Hq. }
    apply (G c W PF). auto.
  Qed.
End Rows.

(** A row in which every column shows one of the tokens that have it shows no token twice. *)
Lemma shown_tokens : forall sg toks cells tks cols, shown_row sg toks cells tks cols ->
  exists is, NoDup is /\ Forall2 (fun i tk => nth_error tks i = Some tk) is (flat_map cell_tokens cells) /\
    (forall k, In k cols <-> exists i, In i is /\ nth_error cols i = Some k) /\
    (forall i j k, In i is -> In j is -> nth_error cols i = Some k -> nth_error cols j = Some k -> i = j).
Proof.
  intros sg toks cells tks cols SR.
  assert (G : forall l n, (forall k ce, nth_error l k = Some ce -> nth_error cells (n + k) = Some ce) ->
    exists is, NoDup is /\ Forall2 (fun i tk => nth_error tks i = Some tk) is (flat_map cell_tokens l) /\
      (forall i, In i is -> exists k, nth_error cols i = Some k /\ n <= k < n + length l) /\
      (forall k, n <= k < n + length l -> In k cols -> exists i, In i is /\ nth_error cols i = Some k) /\
      (forall i j k, In i is -> In j is -> nth_error cols i = Some k -> nth_error cols j = Some k -> i = j)).
  { induction l as [|ce l IH]; intros n H.
    - exists []. split; [constructor|]. split; [constructor|]. split; [intros i []|]. split; [|intros i j k []]. intros k K. cbn [length] in K. lia.
    - destruct (IH (S n)) as [is [I1 [I2 [I3 [I4 I5]]]]].
      { intros k ce' E. replace (S n + k) with (n + S k) by lia. apply H. exact E. }
      pose proof (sr_cells _ _ _ _ _ SR n ce) as C. specialize (H 0 ce eq_refl). rewrite Nat.add_0_r in H. specialize (C H).
      destruct ce as [ts|]; cbn [flat_map cell_tokens].
      + destruct C as [i [tk [C1 [C2 ->]]]]. exists (i :: is). cbn [app]. split; [|split; [|split; [|split]]].
        * constructor; [|exact I1]. intros X. destruct (I3 i X) as [k [K1 K2]]. rewrite C2 in K1. injection K1 as <-. lia.
        * constructor; assumption.
        * intros j [<-|J]; [exists n; split; [exact C2|cbn [length]; lia]|]. destruct (I3 j J) as [k [K1 K2]]. exists k. split; [exact K1|]. cbn [length]. lia.
        * intros k K1 K2. cbn [length] in K1. destruct (Nat.eq_dec k n) as [->|Q]; [exists i; split; [left; reflexivity|exact C2]|].
          destruct (I4 k) as [j [J1 J2]]; [lia|exact K2|]. exists j. split; [right; exact J1|exact J2].
        * assert (X : forall j k, In j is -> nth_error cols j = Some k -> k <> n).
          { intros j k J K. destruct (I3 j J) as [k' [K1 K2]]. rewrite K in K1. injection K1 as <-. lia. }
          intros a b k [<-|Ha] [<-|Hb] Ka Kb; [reflexivity| | |apply (I5 a b k); assumption].
          { rewrite C2 in Ka. injection Ka as <-. destruct (X b _ Hb Kb eq_refl). }
          { rewrite C2 in Kb. injection Kb as <-. destruct (X a _ Ha Ka eq_refl). }
      + exists is. split; [exact I1|]. split; [exact I2|]. split; [|split; [|exact I5]].
        * intros j J. destruct (I3 j J) as [k [K1 K2]]. exists k. split; [exact K1|]. cbn [length]. lia.
        * intros k K1 K2. cbn [length] in K1. destruct (Nat.eq_dec k n) as [->|Q]; [contradiction|]. apply I4; [lia|exact K2]. }
  destruct (G cells 0) as [is [I1 [I2 [I3 [I4 I5]]]]]; [intros k ce E; exact E|]. exists is. split; [exact I1|]. split; [exact I2|]. split; [|exact I5].
  intros k. split.
  - intros K. apply I4; [|exact K]. pose proof (sr_inside _ _ _ _ _ SR k K). lia.
  - intros [i [_ K]]. apply nth_error_In in K. exact K.
Qed.

Lemma full_indices : forall n (is : list nat), NoDup is -> (forall i, In i is -> i < n) -> length is = n -> forall i, i < n -> In i is.
Proof.
  intros n is N B L i Hi. assert (I : incl (seq 0 n) is); [|apply I; apply in_seq; lia].
  apply NoDup_length_incl; [exact N|rewrite seq_length; lia|]. intros j Hj. apply in_seq. specialize (B j Hj). lia.
Qed.

Theorem shown_summary : forall sg toks cells tks cols, shown_row sg toks cells tks cols ->
  NoDup (map tk_pos (flat_map cell_tokens cells)) /\ incl (flat_map cell_tokens cells) tks /\ (length (flat_map cell_tokens cells) = length toks <-> NoDup cols).
Proof.
  intros sg toks cells tks cols SR. destruct (shown_tokens _ _ _ _ _ SR) as [is [I1 [I2 [I3 I4]]]].
  pose proof (sr_columns _ _ _ _ _ SR) as LC.
  assert (LT : length toks = length tks) by (pose proof (sr_tokens _ _ _ _ _ SR) as F; clear - F; induction F; cbn [length]; congruence).
  assert (LI : length is = length (flat_map cell_tokens cells)) by (clear - I2; induction I2; cbn [length]; congruence).
  assert (B : forall i, In i is -> i < length tks).
  { intros i Hi. clear - I2 Hi. induction I2 as [|j tk is l E I2 IH]; [destruct Hi|]. destruct Hi as [<-|Hi]; [|apply IH; exact Hi]. apply nth_error_Some. rewrite E. discriminate. }
  split; [|split].
  - pose proof (sr_marks _ _ _ _ _ SR) as NM. clear - I1 I2 NM. induction I2 as [|i tk is l E I2 IH]; cbn [map]; [constructor|].
    inversion I1 as [|? ? I3 I4]; subst. constructor; [|apply IH; exact I4]. intros C. apply in_map_iff in C as [tk' [E1 E2]]. apply I3.
    assert (X : exists j, In j is /\ nth_error tks j = Some tk').
    { clear - I2 E2. induction I2 as [|j b is l E I2 IH]; [destruct E2|]. destruct E2 as [->|E2]; [exists j; split; [left; reflexivity|exact E]|].
      destruct (IH E2) as [j' [J1 J2]]. exists j'. split; [right; exact J1|exact J2]. }
    destruct X as [j [J1 J2]]. replace i with j; [exact J1|]. apply (proj1 (NoDup_nth_error (map tk_pos tks)) NM).
    + apply nth_error_Some. rewrite nth_error_map, J2. discriminate.
    + rewrite !nth_error_map, J2, E. cbn [option_map]. congruence.
  - intros tk Hk. clear - I2 Hk. induction I2 as [|i b is l E I2 IH]; [destruct Hk|]. destruct Hk as [<-|Hk]; [apply nth_error_In in E; exact E|apply IH; exact Hk].
  - rewrite <- LI, LT. split.
    + intros L. apply NoDup_nth_error. intros i j Hi E. rewrite LC in Hi. destruct (nth_error cols i) as [k|] eqn:K; [|apply nth_error_None in K; lia].
      assert (Hj : j < length cols) by (apply nth_error_Some; rewrite <- E; discriminate).
      apply (I4 i j k); [apply (full_indices _ is I1 B L); exact Hi|apply (full_indices _ is I1 B L); lia|exact K|congruence].
    + intros NC. apply Nat.le_antisymm.
      * replace (length tks) with (length (seq 0 (length tks))) by apply seq_length. apply NoDup_incl_length; [exact I1|]. intros i Hi. apply in_seq. specialize (B i Hi). lia.
      * replace (length tks) with (length (seq 0 (length tks))) by apply seq_length. apply NoDup_incl_length; [apply seq_NoDup|]. intros i Hi. apply in_seq in Hi.
        destruct (nth_error cols i) as [k|] eqn:K; [|apply nth_error_None in K; lia].
        destruct (proj1 (I3 k) (nth_error_In _ _ K)) as [j [J1 J2]]. replace i with j; [exact J1|].
        apply (proj1 (NoDup_nth_error cols) NC); [apply nth_error_Some; rewrite J2; discriminate|congruence].
Qed.
