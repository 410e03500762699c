(** Collations and the alignments of AnyProgSpec. *)
From Verif Require Import Py TokenModel SuffixModel IndexModel GraphModel AlignModel TableModel NearModel ExportModel CollateModel
  Lib GraphSpec GraphProof MergeProof RankProof AlignProof BlockProof SuffixProof FindProof IndexProof BlockText InstProof CubeProof
  AlignerProof CollateProof TableSpec TableProof CollateSpec JoinProof TopoProof ResultProof ErrorProof FactsProof OutputProof StageProof PlainProof NearProof NearTwoProof
  WalkSpec WalkProof WalkAlign WalkStage IdentProof DrawProof FilterProof PairSpec ChosenSpec ChosenProof PairProof GrowProof CommonProof ProgSpec ProgProof ProgTwo AnyProgSpec.
From Coq Require Import Permutation Relations QArith Sorted.
Open Scope list_scope.
Open Scope nat_scope.

Lemma finite_choice : forall (P : nat -> nat -> Prop) n, (forall i, i < n -> exists x, P i x) -> exists f, forall i, i < n -> P i (f i).
Proof.
  intros P. induction n as [|n IH]; intros H; [exists (fun _ => 0); intros i L; lia|].
  destruct IH as [f F]; [intros i L; apply H; lia|]. destruct (H n) as [x X]; [lia|].
  exists (fun i => if i =? n then x else f i). intros i L. destruct (Nat.eqb_spec i n) as [->|N]; [exact X|]. apply F. lia.
Qed.

Section Step.
  Variables (A : alignment) (g : graph) (W : list wpath) (rk : vid -> nat) (mm : nat) (l : list vid).
  Hypothesis TD : tied A g W.
  Hypothesis ON : on_threads A.
  Hypothesis RO : rank_ok g rk mm l.
  Variables (ts : list token) (path : list vid) (M : nat -> nat -> bool) (ms : list move) (al : list (nat * vid)).
  Variable filt : option props_filter.
  Hypothesis OS : optimal_step filt g rk W ts path M ms.
  Hypothesis ND : NoDup path.
  Hypothesis PA : path = assign al (g_next g) ts.
  Hypothesis AV : forall t v, In t ts -> dget Nat.eqb (tk_pos t) al = Some v -> In v (vertices g).
  Let text := map tk_str ts.
  Let GI := td_graph _ _ _ TD.
  Let mt := met (walk M ms).
  Let MM : mt = met (walk M ms) := eq_refl.
  Let LP : length path = length ts := os_len _ _ _ _ _ _ _ _ OS.

  Lemma old_vertex : forall j u v, nth_error ts j = Some u -> nth_error path j = Some v -> In v (vertices g) ->
    exists n, v = vx_of n /\ nth_error (node_words A) n = Some (tk_str u) /\ place_in A n = rk v /\ In (S j, rk v) (mt).
  Proof.
    intros j u v Hu Hv I. destruct (os_aligned _ _ _ _ _ _ _ _ OS j v u Hv Hu I) as [O1 O2]. apply (on_node A g W TD ON) in O2 as [n [-> E]]. exists n. split; [reflexivity|]. split; [exact E|].
    split; [apply (place_is_rank A g W rk mm l TD ON RO); apply nth_error_Some; congruence|]. rewrite MM. exact O1.
  Qed.
  Lemma found_vertex : forall i t v, nth_error ts i = Some t -> dget Nat.eqb (tk_pos t) al = Some v -> nth_error path i = Some v /\ In v (vertices g).
  Proof.
    intros i t v Ht D. split; [|apply (AV t v); [apply nth_error_In in Ht; exact Ht|exact D]].
    rewrite PA. clear - Ht D. revert i Ht. generalize (g_next g). induction ts as [|a r IH]; intros nx i Ht; [destruct i; discriminate Ht|]. destruct i as [|i]; cbn [nth_error assign] in *.
    - injection Ht as ->. rewrite D. reflexivity.
    - destruct (dget Nat.eqb (tk_pos a) al); cbn [nth_error]; apply IH; assumption.
  Qed.

  (** The node of the vertex the word gets, or of the vertex a later occurrence of the word gets in its place. *)
  Definition node_for (i n : nat) : Prop := forall x, In (S i, x) (mt) -> exists j t t',
    i <= j /\ nth_error path j = Some (vx_of n) /\ In (S j, x) (mt) /\ nth_error ts i = Some t /\ nth_error ts j = Some t' /\ tk_str t = tk_str t' /\
    stands A x (tk_str t) n = true /\ (i < j -> dget Nat.eqb (tk_pos t) al = None) /\ dget Nat.eqb (tk_pos t') al = Some (vx_of n).

  Lemma node_found : forall i, exists n, node_for i n.
  Proof.
    intros i. unfold node_for. pose proof (proj1 (walk_met M ms)) as ST.
    destruct (List.find (fun p => fst p =? S i) (mt)) as [[y x]|] eqn:F.
    2:{ exists 0. intros x I. pose proof (find_none _ _ F _ I) as Q. cbn [fst] in Q. rewrite Nat.eqb_refl in Q. discriminate Q. }
    apply find_some in F as [F1 F2]. cbn [fst] in F2. apply Nat.eqb_eq in F2. subst y.
    assert (U : forall x', In (S i, x') (mt) -> x' = x).
    { intros x' I. rewrite MM in *. pose proof (find_fst _ _ _ ST I) as Q1. pose proof (find_fst _ _ _ ST F1) as Q2. congruence. }
    assert (HD : forall j t v, nth_error ts j = Some t -> nth_error path j = Some v -> In v (vertices g) -> dget Nat.eqb (tk_pos t) al = Some v).
    { intros j t v Ht Hv I. rewrite PA in Hv. apply (assign_old al ts (g_next g) j t v Ht Hv (gi_bound _ _ GI _ I)). }
    pose proof F1 as F1'. rewrite MM in F1'. destruct (os_met _ _ _ _ _ _ _ _ OS (S i) x F1') as [y2 [v2 [u [u2 [C1 [C2 [C3 [C4 [C5 [C6 [C7 [C8 C9]]]]]]]]]]]].
    replace (S i - 1) with i in C7 by lia.
    destruct (dget Nat.eqb (tk_pos u) al) as [v|] eqn:D.
    - destruct (found_vertex i u v C7 D) as [Hv I]. destruct (old_vertex i u v C7 Hv I) as [n [-> [E1 [E2 E3]]]]. apply U in E3 as E3'. exists n. intros x' Ix. apply U in Ix. subst x'.
      exists i, u, u. split; [lia|]. split; [exact Hv|]. split; [exact F1|]. split; [exact C7|]. split; [exact C7|]. split; [reflexivity|].
      split; [apply stands_iff; split; [congruence|exact E1]|]. split; [lia|exact D].
    - destruct (old_vertex (y2 - 1) u2 v2 C8 C3 C4) as [n [-> [E1 [E2 E3]]]]. exists n. intros x' Ix. apply U in Ix. subst x'.
      exists (y2 - 1), u, u2. split; [lia|]. split; [exact C3|]. split; [replace (S (y2 - 1)) with y2 by lia; rewrite MM; exact C2|]. split; [exact C7|]. split; [exact C8|]. split; [exact C9|].
      split; [apply stands_iff; split; [congruence|congruence]|]. split; [intros _; exact D|exact (HD _ _ _ C8 C3 C4)].
  Qed.

  Lemma picked : exists pick, a_choice A text mt pick /\ Forall2 (fun t o => dget Nat.eqb (tk_pos t) al = option_map vx_of o) ts (map (picked_node mt pick) (seq 0 (length text))).
  Proof.
    destruct (finite_choice node_for (length ts)) as [pick P]; [intros i _; apply node_found|]. exists pick.
    assert (TX : forall i s, nth_error text i = Some s -> i < length ts).
    { intros i s E. unfold text in E. rewrite <- (map_length tk_str). apply nth_error_Some. congruence. }
    split.
    - intros i s x HS I. destruct (P i (TX i s HS) x I) as [j [t [t' [_ [_ [_ [Q1 [_ [_ [Q2 _]]]]]]]]]]. apply (text_nth ts) in HS as [t2 [HS <-]]. rewrite Q1 in HS. injection HS as <-. exact Q2.
    - apply Forall2_pointwise; [unfold text; rewrite !map_length, seq_length; reflexivity|]. intros i t o Ht Ho. rewrite nth_error_map in Ho.
      assert (K : i < length ts) by (apply nth_error_Some; congruence). rewrite nth_error_seq in Ho by (unfold text; rewrite map_length; exact K).
      cbn [option_map Nat.add] in Ho. injection Ho as <-. unfold picked_node, meets.
      destruct (existsb (fun p => fst p =? S i) (mt)) eqn:EM; cbn [andb].
      + apply existsb_exists in EM as [[y x] [I Q]]. cbn [fst] in Q. apply Nat.eqb_eq in Q. subst y.
        destruct (P i K x I) as [j [u [u' [L [Hj [Ij [Hu [Hu' [Eu [_ [D1 D2]]]]]]]]]]]. rewrite Ht in Hu. injection Hu as <-.
        destruct (existsb (fun q => (S i <? fst q) && (pick (fst q - 1) =? pick i)) (mt)) eqn:EX; cbn [negb option_map].
        * apply existsb_exists in EX as [[y2 x2] [I2 Q]]. cbn [fst] in Q. apply andb_true_iff in Q as [Q1 Q2]. apply Nat.ltb_lt in Q1. apply Nat.eqb_eq in Q2.
          destruct (Nat.eq_dec i j) as [<-|NE]; [exfalso|apply D1; lia].
          assert (Y2 : S (y2 - 1) = y2) by lia. rewrite <- Y2 in I2.
          assert (K2 : y2 - 1 < length ts).
          { pose proof I2 as I2'. rewrite MM in I2'. destruct (os_met _ _ _ _ _ _ _ _ OS _ _ I2') as [? [? [? [? [_ [_ [_ [_ [_ [_ [C7 _]]]]]]]]]]].
            replace (S (y2 - 1) - 1) with (y2 - 1) in C7 by lia. apply nth_error_Some. congruence. }
          destruct (P (y2 - 1) K2 x2 I2) as [j2 [_ [_ [L2 [Hj2 _]]]]]. rewrite Q2 in Hj2. pose proof (nth_unique path i j2 _ ND Hj Hj2). lia.
        * destruct (Nat.eq_dec i j) as [<-|NE]; [congruence|exfalso]. rewrite <- not_true_iff_false in EX. apply EX. apply existsb_exists. exists (S j, x). split; [exact Ij|]. cbn [fst].
          apply andb_true_iff. split; [apply Nat.ltb_lt; lia|]. apply Nat.eqb_eq. replace (S j - 1) with j by lia.
          assert (K2 : j < length ts) by (apply nth_error_Some; congruence).
          destruct (P j K2 x Ij) as [j2 [v [v' [L2 [Hj2 [_ [Hv [_ [_ [_ [D3 _]]]]]]]]]]]. rewrite Hu' in Hv. injection Hv as <-.
          destruct (Nat.eq_dec j j2) as [<-|NE2]; [|rewrite D3 in D2 by lia; discriminate D2]. rewrite Hj in Hj2. injection Hj2 as Hj2. symmetry. exact Hj2.
      + cbn [option_map]. destruct (dget Nat.eqb (tk_pos t) al) as [v|] eqn:D; [|reflexivity]. exfalso.
        destruct (found_vertex i t v Ht D) as [Hv I]. destruct (old_vertex i t v Ht Hv I) as [n [-> [_ [_ E3]]]].
        rewrite <- not_true_iff_false in EM. apply EM. apply existsb_exists. eexists. split; [exact E3|]. cbn [fst]. apply Nat.eqb_refl.
  Qed.

  Lemma pick_stands : forall pick i n s, a_choice A text mt pick -> nth_error text i = Some s -> picked_node mt pick i = Some n -> nth_error (node_words A) n = Some s.
  Proof.
    intros pick i n s PK HS O. unfold picked_node, meets in O. destruct (existsb (fun p => fst p =? S i) (mt)) eqn:EM; [|discriminate O].
    apply existsb_exists in EM as [[y x] [I Q]]. cbn [fst] in Q. apply Nat.eqb_eq in Q. subst y. pose proof (PK i s x HS I) as ST. apply stands_iff in ST as [_ ST].
    destruct (existsb _ _) in O; [discriminate O|]. cbn in O. injection O as <-. exact ST.
  Qed.

  Theorem any_step : forall g' new sg, merge g sg ts al = Ok (g', new) -> graph_of g' (W ++ [(sg, steps ts path)]) ->
    exists pick, a_choice A text mt pick /\ tied (add_picked A text mt pick) g' (W ++ [(sg, steps ts path)]) /\ on_threads (add_picked A text mt pick).
  Proof.
    intros g' new sg MG GI'. destruct picked as [pick [PK CN]]. exists pick. split; [exact PK|]. set (L := map (picked_node mt pick) (seq 0 (length text))) in *.
    assert (LL : length text = length L) by (unfold L; rewrite map_length, seq_length; reflexivity).
    assert (PE : path = map vx_of (with_new (length (node_words A)) L)).
    { rewrite PA, (td_next _ _ _ TD). apply assign_numbers. exact CN. }
    assert (EA : add_picked A text mt pick = {| node_words := node_words A ++ new_words L text; threads := threads A ++ [with_new (length (node_words A)) L] |}) by reflexivity.
    rewrite EA. clear EA. split.
    - constructor; cbn [node_words threads].
      + exact GI'.
      + destruct W; discriminate.
      + rewrite !map_app. f_equal; [exact (td_threads _ _ _ TD)|]. cbn [map snd]. rewrite (steps_fst _ _ LP), PE. reflexivity.
      + rewrite (merge_next _ _ _ _ _ _ MG), (td_next _ _ _ TD), (fresh_numbers _ _ _ CN), app_length. fold text. unfold vx_of. lia.
      + intros wp v tl Hwp Hi. apply in_app_or in Hwp as [Hwp|[<-|[]]]; [apply (td_single _ _ _ TD wp v tl Hwp Hi)|]. cbn [snd] in Hi.
        destruct (steps_single _ _ _ _ Hi) as [t [-> _]]. eauto.
      + intros wp v t Hwp Hi. apply in_app_or in Hwp as [Hwp|[<-|[]]].
        * destruct (td_words _ _ _ TD wp v t Hwp Hi) as [n [-> E]]. exists n. split; [reflexivity|]. rewrite nth_error_app1; [exact E|]. apply nth_error_Some. congruence.
        * cbn [snd] in Hi. destruct (steps_at _ _ _ _ LP Hi) as [i [I1 I2]]. rewrite PE in I1. apply nth_map in I1 as [n [I1 <-]]. exists n. split; [reflexivity|].
          pose proof (proj2 (text_nth ts i (tk_str t)) (ex_intro _ t (conj I2 eq_refl))) as HS.
          destruct (with_new_word L text _ i n _ I1 HS) as [K|[K1 [K2 K3]]].
          -- unfold L in K. apply nth_map in K as [j [J1 J2]]. assert (Li : i < length text) by (apply nth_error_Some; unfold text; congruence).
             rewrite nth_error_seq in J1 by exact Li. injection J1 as <-. pose proof (pick_stands pick i n _ PK HS J2) as E. rewrite nth_error_app1; [exact E|]. apply nth_error_Some. congruence.
          -- rewrite nth_error_app2 by exact K2. exact K3.
    - intros n Hn. cbn [node_words threads] in *. rewrite app_length in Hn. destruct (lt_dec n (length (node_words A))) as [Q|Q].
      + destruct (ON n Q) as [th [T1 T2]]. exists th. split; [apply in_or_app; left; exact T1|exact T2].
      + exists (with_new (length (node_words A)) L). split; [apply in_or_app; right; left; reflexivity|]. apply (with_new_all L text); [exact LL|lia].
  Qed.
End Step.

(** ** The alignments *)
Lemma met_node : forall A text y x, In (y, x) (meetings A text) -> exists i s n, y = S i /\ nth_error text i = Some s /\ stands A x s n = true.
Proof.
  intros A text y x H. unfold meetings in H. apply (proj2 (walk_met (fits A text) _)) in H as [H _]. cbn [fst snd] in H.
  destruct y as [|i]; [discriminate H|]. cbn [fits] in H. destruct (nth_error text i) as [s|] eqn:E; [|discriminate H]. apply existsb_exists in H as [n [_ H]]. eauto 8.
Qed.
Lemma met_once : forall A text y x x', In (y, x) (meetings A text) -> In (y, x') (meetings A text) -> x = x'.
Proof.
  intros A text y x x' H H'. unfold meetings in *. set (m := met _) in *. pose proof (proj1 (walk_met (fits A text) (snd (best_way (fits A text) (length text) (breadth A))))) as ST. fold m in ST.
  pose proof (find_fst _ _ _ ST H). pose proof (find_fst _ _ _ ST H'). congruence.
Qed.
Theorem some_choice : forall A text, exists pick, a_choice A text (meetings A text) pick.
Proof.
  intros A text. destruct (finite_choice (fun i n => forall s x, nth_error text i = Some s -> In (S i, x) (meetings A text) -> stands A x s n = true) (length text)) as [pick P].
  - intros i _. destruct (List.find (fun p => fst p =? S i) (meetings A text)) as [[y x]|] eqn:F.
    + apply find_some in F as [F1 F2]. cbn [fst] in F2. apply Nat.eqb_eq in F2. subst y. destruct (met_node A text _ x F1) as [i' [s [n [E [T S]]]]]. injection E as <-.
      exists n. intros s' x' T' I. rewrite (met_once A text _ _ _ I F1). congruence.
    + exists 0. intros s x _ I. pose proof (find_none _ _ F _ I) as Q. cbn [fst] in Q. rewrite Nat.eqb_refl in Q. discriminate Q.
  - exists pick. intros i s x T I. apply P; [apply nth_error_Some; congruence|exact T|exact I].
Qed.

Theorem clear_picked : forall A text pick, clear A -> a_choice A text (meetings A text) pick -> add_picked A text (meetings A text) pick = add_text A text.
Proof.
  intros A text pick CL PK. unfold add_picked, add_text.
  assert (E : map (picked_node (meetings A text) pick) (seq 0 (length text)) = map (old_node A text) (seq 0 (length text))).
  2:{ rewrite E. reflexivity. }
  apply map_ext_in. intros i Hi. apply in_seq in Hi. destruct (nth_error text i) as [s|] eqn:T; [|apply nth_error_None in T; lia].
  unfold picked_node, meets, old_node. rewrite T. destruct (List.find (fun p => fst p =? S i) (meetings A text)) as [[y x]|] eqn:F.
  - apply find_some in F as [F1 F2]. cbn [fst] in F2. apply Nat.eqb_eq in F2. subst y.
    replace (existsb (fun p => fst p =? S i) (meetings A text)) with true by (symmetry; apply existsb_exists; eexists; split; [exact F1|]; cbn [fst]; apply Nat.eqb_refl). cbn [andb].
    pose proof (PK i s x T F1) as ST. pose proof ST as ST'. apply stands_iff in ST' as [ST1 ST2].
    assert (EX : existsb (fun q => (S i <? fst q) && (pick (fst q - 1) =? pick i)) (meetings A text) =
                 existsb (fun q => (snd q =? x) && (S i <? fst q) && match nth_error text (fst q - 1) with Some s' => str_eqb s s' | None => false end) (meetings A text)).
    { apply eq_true_iff_eq. rewrite !existsb_exists. split; intros [[y2 x2] [I Q]]; exists (y2, x2); (split; [exact I|]); cbn [fst snd] in *;
        destruct (met_node A text y2 x2 I) as [j [s2 [n2 [-> [T2 _]]]]]; replace (S j - 1) with j in * by lia; pose proof (PK j s2 x2 T2 I) as S2; apply stands_iff in S2 as [S3 S4].
      - apply andb_true_iff in Q as [Q1 Q2]. apply Nat.eqb_eq in Q2. rewrite T2. rewrite Q2 in *. rewrite Q1. replace (x2 =? x) with true by (symmetry; apply Nat.eqb_eq; congruence).
        cbn [andb]. apply str_eqb_ok. congruence.
      - rewrite T2 in Q. rewrite !andb_true_iff in Q. destruct Q as [[Q1 Q2] Q3]. apply Nat.eqb_eq in Q1. apply str_eqb_ok in Q3. subst x2 s2. rewrite Q2. cbn [andb]. apply Nat.eqb_eq.
        apply (CL _ _ s); [exact S4|exact ST2|congruence]. }
    rewrite EX. clear EX. match goal with |- context [negb ?b] => destruct b end; cbn [negb]; [reflexivity|].
    assert (NI : In (pick i) (nodes A)) by (apply in_seq; split; [lia|apply nth_error_Some; congruence]).
    destruct (List.find (stands A x s) (nodes A)) as [n|] eqn:FN.
    + apply find_some in FN as [_ FN]. apply stands_iff in FN as [N1 N2]. f_equal. apply (CL _ _ s); [exact ST2|exact N2|congruence].
    + exfalso. pose proof (find_none _ _ FN _ NI). congruence.
  - replace (existsb (fun p => fst p =? S i) (meetings A text)) with false; [reflexivity|]. symmetry. apply not_true_iff_false. intros Q. apply existsb_exists in Q as [p [Q1 Q2]].
    pose proof (find_none _ _ F _ Q1) as Q3. cbn beta in Q3. congruence.
Qed.

Lemma clear_nothing : clear nothing.
Proof. intros n n' s E. destruct n; discriminate E. Qed.

Theorem one_by_one_clear : forall texts, (forall k, S k < length texts -> clear (progressive (firstn (S k) texts))) -> forall A, one_by_one texts A <-> A = progressive texts.
Proof.
  intros texts. induction texts as [|text texts IH] using rev_ind; intros CL A.
  - split; [|intros ->; exact no_text]. intros H. inversion H as [E|texts ? ? ? ? ? E]; [reflexivity|]. destruct texts; discriminate E.
  - assert (CL' : forall k, S k < length texts -> clear (progressive (firstn (S k) texts))).
    { intros k L. specialize (CL k). rewrite app_length in CL. rewrite firstn_app in CL. replace (S k - length texts) with 0 in CL by lia. cbn [firstn] in CL. rewrite app_nil_r in CL. apply CL. lia. }
    assert (C0 : clear (progressive texts)).
    { destruct texts as [|x r] eqn:E; [exact clear_nothing|]. rewrite <- E in *. specialize (CL (length r)). rewrite app_length in CL. cbn [length] in CL.
      replace (firstn (S (length r)) (texts ++ [text])) with texts in CL; [apply CL; subst texts; cbn [length]; lia|].
      subst texts. change (S (length r)) with (length (x :: r)). rewrite firstn_app, firstn_all, Nat.sub_diag, firstn_O, app_nil_r. reflexivity. }
    assert (EP : progressive (texts ++ [text]) = add_text (progressive texts) text) by (unfold progressive; rewrite fold_left_app; reflexivity).
    rewrite EP. split.
    + intros H. inversion H as [E|texts' A' text' pick H1 H2 E]; [destruct texts; discriminate E|]. apply app_inj_tail in E as [-> ->]. apply (IH CL') in H1. subst A'. apply clear_picked; assumption.
    + intros ->. destruct (some_choice (progressive texts) text) as [pick PK]. rewrite <- (clear_picked _ _ pick C0 PK). apply one_more; [apply (IH CL'); reflexivity|exact PK].
Qed.

(** ** The stages *)
Section Runs.
  Variables (c : list witness) (ti : tindex).
  Hypothesis IX : index_ok c ti.
  Hypothesis TX : index_text_ok ti.
  Hypothesis SG : ~ In [] (map w_sigil c).
  Variable topo : graph -> res (list vid).
  Hypothesis TO : topo_ok topo.

  Lemma rest_any : forall rest done st W st' A texts, ti_wits ti = done ++ rest -> al_inv None ti done st W -> tied A (a_graph st) W -> on_threads A -> one_by_one texts A ->
    foldM (next_step topo None false ti) rest st = Ok st' ->
    exists W' A', al_inv None ti (done ++ rest) st' W' /\ tied A' (a_graph st') W' /\ on_threads A' /\ one_by_one (texts ++ map words_of rest) A'.
  Proof.
    induction rest as [|iw rest IH]; intros done st W st' A texts DW AL TD ON OB H.
    - cbn [foldM] in H. injection H as <-. exists W, A. rewrite !app_nil_r. auto.
    - cbn [foldM] in H. apply bind_ok in H as [st1 [H1 H2]].
      destruct (step_numbered c ti None IX TX SG topo TO done iw rest st W st1 DW (td_some _ _ _ TD) AL H1) as [rk [mm [l [path [M [ms [RO [AL' [OS [al [new [PA [AV MG]]]]]]]]]]]]].
      pose proof (al_graph _ _ _ _ _ AL') as GI'.
      assert (NDp : NoDup path).
      { assert (NC : NoDup (chain (iw_sigil iw, steps (iw_toks iw) path))) by (apply (gi_simple _ _ GI'); apply in_or_app; right; left; reflexivity).
        unfold chain in NC. cbn [snd] in NC. rewrite (steps_fst _ _ (os_len _ _ _ _ _ _ _ _ OS)) in NC. inversion NC as [|? ? _ NC']; subst. apply NoDup_app_iff in NC'. apply NC'. }
      destruct (any_step A (a_graph st) W rk mm l TD ON RO (iw_toks iw) path M ms al None OS NDp PA AV (a_graph st1) new (iw_sigil iw) MG GI') as [pick [PK [TD' ON']]].
      rewrite <- (meetings_met A (a_graph st) W rk mm l TD ON RO (iw_toks iw) path M ms OS) in PK, TD', ON'.
      assert (DW' : ti_wits ti = (done ++ [iw]) ++ rest) by (rewrite DW, <- app_assoc; reflexivity).
      destruct (IH (done ++ [iw]) st1 _ st' _ (texts ++ [words_of iw]) DW' AL' TD' ON' (one_more _ _ _ _ OB PK) H2) as [W' [A' [A1 [A2 [A3 A4]]]]].
      exists W', A'. rewrite <- !app_assoc in *. auto.
  Qed.
End Runs.

Theorem any_collate : forall topo c b ti g, topo_ok topo -> good_sigla c -> aligner_collate topo None b c = Ok (ti, g) ->
  exists A W, one_by_one (map readings c) A /\ tied A g W /\ on_threads A /\ Forall2 held c W.
Proof.
  intros topo c b ti g TO [ND NE] H.
  assert (H0 : aligner_collate topo None false c = Ok (ti, g)).
  { destruct b; [|assumption]. unfold aligner_collate in *. apply bind_ok in H as [ti' [P H]]. apply bind_ok in H as [st [A H]].
    rewrite P. cbn [bind]. rewrite (align_all_detect _ _ _ _ A). exact H. }
  clear H. unfold aligner_collate in H0. apply bind_ok in H0 as [ti' [P H]]. apply bind_ok in H as [st [A H]]. injection H as -> <-.
  pose proof (prepare_index_ok _ ti ND P) as IX. pose proof (prepare_text_ok _ ti P) as TX. pose proof (ix_wits _ _ IX) as WT.
  unfold align_all in A. destruct (ti_wits ti) as [|iw rest] eqn:E; [discriminate A|]. apply bind_ok in A as [st0 [F A]].
  destruct (first_tied c ti IX NE None iw rest st0 E F) as [W0 [B1 [B2 B3]]].
  pose proof (stamped_words c 0) as SW. rewrite <- WT in SW. cbn [map] in SW.
  assert (E' : ti_wits ti = [iw] ++ rest) by exact E.
  assert (OB : one_by_one [words_of iw] (add_text nothing (words_of iw))).
  { apply (one_by_one_clear [words_of iw]); [cbn [length]; intros k; lia|reflexivity]. }
  destruct (rest_any c ti IX TX NE topo TO rest [iw] st0 W0 st _ [words_of iw] E' B1 B2 B3 OB A) as [W [A' [D1 [D2 [D3 D4]]]]].
  exists A', W. rewrite <- SW. split; [exact D4|]. split; [exact D2|]. split; [exact D3|]. apply (stamped_held c 0). rewrite <- WT. exact (al_paths _ _ _ _ _ D1).
Qed.

(** The texts of such an alignment. *)
Lemma picked_spelled : forall A text ms pick texts, a_choice A text ms pick -> Forall2 (fun text th => map (nth_error (node_words A)) th = map Some text) texts (threads A) ->
  Forall2 (fun tx th => map (nth_error (node_words (add_picked A text ms pick))) th = map Some tx) (texts ++ [text]) (threads (add_picked A text ms pick)).
Proof.
  intros A text ms pick texts PK IH.
  unfold add_picked. cbv zeta. cbn [node_words threads]. set (L := map (picked_node ms pick) (seq 0 (length text))). apply Forall2_app.
  - eapply Forall2_impl; [|exact IH]. intros tx th E. cbn beta in *. rewrite <- E. apply map_ext_in. intros n Hn. apply nth_error_app1.
    apply nth_error_Some. intros C. apply (in_map (nth_error (node_words A))) in Hn. rewrite E, C in Hn. apply in_map_iff in Hn as [? [Q _]]. discriminate Q.
  - constructor; [|constructor]. apply list_ext. intros i. rewrite !nth_error_map. assert (LL : length L = length text) by (unfold L; rewrite map_length, seq_length; reflexivity).
    destruct (nth_error (with_new (length (node_words A)) L) i) as [n|] eqn:E.
    + destruct (nth_error text i) as [s|] eqn:T.
      2:{ exfalso. apply nth_error_None in T. assert (LN : i < length (with_new (length (node_words A)) L)) by (apply nth_error_Some; congruence). rewrite with_new_length in LN. lia. }
      cbn [option_map]. f_equal. destruct (with_new_word L text _ i n s E T) as [K|[K1 [K2 K3]]].
      * unfold L in K. apply nth_map in K as [j [J1 J2]]. assert (Li : i < length text) by (apply nth_error_Some; congruence).
        rewrite nth_error_seq in J1 by exact Li. injection J1 as <-. cbn [Nat.add] in J2.
        assert (ST : nth_error (node_words A) n = Some s).
        { unfold picked_node, meets in J2. destruct (existsb (fun p => fst p =? S i) ms) eqn:EM; [|discriminate J2].
          apply existsb_exists in EM as [[y x] [I Q]]. cbn [fst] in Q. apply Nat.eqb_eq in Q. subst y. pose proof (PK i s x T I) as ST. apply stands_iff in ST as [_ ST].
          destruct (existsb _ _) in J2; [discriminate J2|]. cbn in J2. injection J2 as <-. exact ST. }
        rewrite nth_error_app1; [exact ST|]. apply nth_error_Some. congruence.
      * rewrite nth_error_app2 by exact K2. exact K3.
    + cbn [option_map]. apply nth_error_None in E. rewrite with_new_length, LL in E. apply nth_error_None in E. rewrite E. reflexivity.
Qed.

Lemma any_spelled : forall texts A, one_by_one texts A -> Forall2 (fun text th => map (nth_error (node_words A)) th = map Some text) texts (threads A).
Proof. intros texts A H. induction H as [|texts A text pick H IH PK]; [constructor|]. apply picked_spelled; assumption. Qed.

(** ** The results *)
Lemma any_alignment : forall cc topo ratio c o out, topo_ok topo -> good_sigla c -> o_filter o = None -> collate cc topo ratio c o = Ok out ->
  (exists t, out = OTable t) \/ (exists g, out = OGraph g) ->
  exists A, one_by_one (map readings c) A /\
    forall ti g0, aligner_collate topo (o_filter o) (o_transp o) c = Ok (ti, g0) -> exists W, tied A g0 W /\ on_threads A /\ Forall2 held c W.
Proof.
  intros cc topo ratio c o out TO G Hf H K. rewrite Hf.
  assert (HA : exists ti g, aligner_collate topo None (o_transp o) c = Ok (ti, g)).
  { assert (H1 : exists g r, collate_graph cc topo ratio c o = Ok (g, r)).
    { destruct K as [[t ->]|[g ->]].
      - destruct (collate_table_inv cc topo ratio _ o t H) as [g [r [H1 _]]]. eauto.
      - destruct (collate_graph_inv cc topo ratio _ o g H) as [r H1]. eauto. }
    destruct H1 as [g [r H1]]. unfold collate_graph in H1. apply bind_ok in H1 as [[ti g1] [HA _]]. rewrite Hf in HA. exists ti, g1. destruct (o_astar o); [discriminate HA|exact HA]. }
  destruct HA as [ti [g HA]]. destruct (any_collate topo c _ ti g TO G HA) as [A [W [OB [TD [ON HE]]]]]. exists A. split; [exact OB|].
  intros ti' g' HA'. rewrite HA in HA'. injection HA' as <- <-. exists W. auto.
Qed.
