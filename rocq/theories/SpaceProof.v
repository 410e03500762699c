(** Tokens of texts that differ in white space. *)
From Verif Require Import Py Lib TokenModel TokenSpec TokenProof SpaceSpec.
Open Scope list_scope.
Open Scope nat_scope.

Section Space.
  Variable cc : cclass.
  Hypothesis CC : cclass_ok cc.

  Lemma span_run : forall {A} (p : A -> bool) a b, Forall (fun c => p c = true) a -> match b with [] => True | c :: _ => p c = false end -> span p (a ++ b) = (a, b).
  Proof.
    intros A p a b F H. induction F as [|x a Hx F IH]; cbn [app].
    - destruct b as [|c b]; cbn [span]; [reflexivity|]. rewrite H. reflexivity.
    - cbn [span]. rewrite Hx, IH. reflexivity.
  Qed.
  Lemma next_not_ends : forall p s, next_not p s -> match s with [] => True | c :: _ => p c = false end.
  Proof. intros p [|c s]; cbn; auto. Qed.
  Lemma space_not_word : forall sp, all_chars (iss cc) sp -> all_chars (fun c => negb (isw cc c)) sp.
  Proof. intros sp F. eapply Forall_impl; [|exact F]. intros c H. cbn in H |- *. rewrite (CC c H). reflexivity. Qed.

  Lemma rstrip_spec : forall n sp, all_chars (iss cc) sp -> next_not (iss cc) (rev n) -> rstrip cc (n ++ sp) = n.
  Proof.
    intros n sp F H. unfold rstrip. rewrite rev_app_distr. rewrite span_run.
    - apply rev_involutive.
    - apply Forall_rev. exact F.
    - apply next_not_ends. exact H.
  Qed.
  Lemma word_end : forall p, is_word cc p -> next_not (iss cc) (rev p).
  Proof.
    intros p [_ F]. apply Forall_rev in F. destruct (rev p) as [|c s]; [exact I|]. cbn. inversion F; subst.
    destruct (iss cc c) eqn:E; [|reflexivity]. rewrite (CC c E) in *. discriminate.
  Qed.
  Lemma spaced_start : forall q ps text, spaced cc (q :: ps) text -> (is_word cc q -> next_is (isw cc) text) /\ (is_punctuation cc q -> next_not (isw cc) text) /\ text <> [] /\
    next_not (iss cc) text /\ (is_word cc q \/ is_punctuation cc q).
  Proof.
    assert (W : forall q s, is_word cc q -> next_is (isw cc) (q ++ s) /\ q ++ s <> [] /\ next_not (iss cc) (q ++ s)).
    { intros [|c q] s [N F]; [contradiction|]. cbn. inversion F; subst. split; [assumption|]. split; [discriminate|].
      destruct (iss cc c) eqn:E; [|reflexivity]. rewrite (CC c E) in *. discriminate. }
    assert (P : forall q s, is_punctuation cc q -> next_not (isw cc) (q ++ s) /\ q ++ s <> [] /\ next_not (iss cc) (q ++ s)).
    { intros [|c q] s [N [F [B _]]]; [contradiction|]. cbn. inversion F as [|? ? H]; subst. split; [|split; [discriminate|exact B]].
      destruct (isw cc c); [discriminate|reflexivity]. }
    intros q ps text H. inversion H; subst.
    - destruct H2 as [K|K].
      + destruct (W q sp K) as [? [? ?]]. split; [auto|]. split; [intros Q; exact (proj1 (P q sp Q))|auto].
      + destruct (P q sp K) as [? [? ?]]. split; [intros Q; exact (proj1 (W q sp Q))|]. auto.
    - destruct (W q (sp ++ text0) H2) as [? [? ?]]. split; [auto|]. split; [intros Q; exact (proj1 (P q _ Q))|auto].
    - destruct (P q (sp ++ text0) H2) as [? [? ?]]. split; [intros Q; exact (proj1 (W q _ Q))|]. auto.
  Qed.

  Lemma word_step : forall f p sp rest, is_word cc p -> all_chars (iss cc) sp -> next_not (iss cc) rest -> next_not (isw cc) (sp ++ rest) ->
    tokenize_aux cc (S f) (p ++ sp ++ rest) = (p ++ sp) :: tokenize_aux cc f rest.
  Proof.
    intros f p sp rest [N F] S1 S2 S3. destruct p as [|c p]; [contradiction|]. cbn [tokenize_aux]. cbn [app].
    inversion F; subst. rewrite H1. change (c :: p ++ sp ++ rest) with ((c :: p) ++ sp ++ rest). rewrite (span_run (isw cc)); [|exact F|apply next_not_ends; exact S3].
    rewrite span_run; [reflexivity|exact S1|apply next_not_ends; exact S2].
  Qed.
  Lemma punct_step : forall f p sp rest, is_punctuation cc p -> all_chars (iss cc) sp -> next_is (isw cc) rest ->
    tokenize_aux cc (S f) (p ++ sp ++ rest) = (p ++ sp) :: tokenize_aux cc f rest.
  Proof.
    intros f p sp rest [N [F _]] S1 S2. destruct p as [|c p]; [contradiction|]. cbn [tokenize_aux app].
    inversion F; subst. destruct (isw cc c) eqn:E; [discriminate|]. change (c :: p ++ sp ++ rest) with ((c :: p) ++ sp ++ rest). rewrite app_assoc.
    rewrite (span_run (fun x => negb (isw cc x))); [reflexivity| |].
    - apply Forall_app. split; [exact F|apply space_not_word; exact S1].
    - destruct rest as [|d rest]; [exact I|]. cbn in S2. rewrite S2. reflexivity.
  Qed.
  Lemma space_then : forall sp rest, all_chars (iss cc) sp -> (sp = [] -> next_not (isw cc) rest) -> next_not (isw cc) (sp ++ rest).
  Proof. intros [|c sp] rest F H; [apply H; reflexivity|]. cbn. inversion F; subst. apply CC. assumption. Qed.

  Lemma spaced_tokens : forall ps text, spaced cc ps text -> forall f, length text <= f -> map (rstrip cc) (tokenize_aux cc f text) = ps.
  Proof.
    intros ps text H. induction H as [|p sp K S|p sp q ps text K S G H IH|p sp q ps text K S G H IH]; intros f L.
    - destruct f; reflexivity.
    - destruct f as [|f]; [|rewrite <- (app_nil_r sp) at 1].
      { destruct K as [[N _]|[N _]]; destruct p; try contradiction; cbn in L; lia. }
      destruct K as [K|K].
      + rewrite word_step; [|exact K|exact S|exact I|apply space_then; [exact S|intros; exact I]]. cbn [map].
        rewrite rstrip_spec; [|exact S|apply word_end; exact K]. destruct f; reflexivity.
      + rewrite punct_step; [|exact K|exact S|exact I]. cbn [map].
        rewrite rstrip_spec; [|exact S|apply K]. destruct f; reflexivity.
    - destruct (spaced_start _ _ _ H) as [A [B [C [D E]]]].
      assert (LT : length text < length (p ++ sp ++ text)) by (destruct K as [N _]; destruct p; [contradiction|]; cbn; rewrite !app_length; lia).
      destruct f as [|f]; [lia|]. rewrite word_step; [|exact K|exact S|exact D|].
      + cbn [map]. rewrite rstrip_spec; [|exact S|apply word_end; exact K]. f_equal. apply IH. lia.
      + apply space_then; [exact S|]. intros ->. destruct E as [E|E]; [exfalso; apply (G E); reflexivity|auto].
    - destruct (spaced_start _ _ _ H) as [A [B [C [D E]]]].
      assert (LT : length text < length (p ++ sp ++ text)) by (destruct K as [N _]; destruct p; [contradiction|]; cbn; rewrite !app_length; lia).
      destruct f as [|f]; [lia|]. rewrite punct_step; [|exact K|exact S|apply A; exact G].
      cbn [map]. rewrite rstrip_spec; [|exact S|apply K]. f_equal. apply IH. lia.
  Qed.
  Theorem spaced_readings : forall ps text, spaced cc ps text -> map t0_str (map (plain_token cc) (tokenize cc text)) = ps.
  Proof. intros ps text H. rewrite map_map. cbn [plain_token t0_str]. apply (spaced_tokens ps text H). unfold tokenize. reflexivity. Qed.

  (** Every text that does not begin with white space is of this form. *)
  Lemma strip_split : forall s : str, exists n sp, s = n ++ sp /\ all_chars (iss cc) sp /\ next_not (iss cc) (rev n).
  Proof.
    intros s. destruct (span (iss cc) (rev s)) as [a b] eqn:E. exists (rev b), (rev a).
    split; [apply span_app in E; rewrite <- rev_app_distr, <- E, rev_involutive; reflexivity|].
    split; [apply Forall_rev; apply (span_all _ _ _ _ E)|]. rewrite rev_involutive. apply span_next in E. destruct b; [exact I|exact E].
  Qed.
  Lemma spaced_exists : forall n text, length text <= n -> next_not (iss cc) text -> exists ps, spaced cc ps text.
  Proof.
    induction n as [|n IH]; intros text L B.
    - destruct text; [|cbn in L; lia]. exists []. constructor.
    - destruct text as [|c text]; [exists []; constructor|]. destruct (isw cc c) eqn:W.
      + destruct (span (isw cc) (c :: text)) as [p r] eqn:E1. destruct (span (iss cc) r) as [sp rest] eqn:E2.
        pose proof (span_app _ _ _ _ E1) as A1. pose proof (span_app _ _ _ _ E2) as A2. pose proof (span_all _ _ _ _ E1) as F1. pose proof (span_all _ _ _ _ E2) as F2.
        pose proof (span_next _ _ _ _ E1) as N1. pose proof (span_next _ _ _ _ E2) as N2.
        assert (PW : is_word cc p).
        { split; [|exact F1]. cbn [span] in E1. rewrite W in E1. destruct (span (isw cc) text). injection E1 as <- <-. discriminate. }
        destruct (IH rest) as [ps H].
        * rewrite A1, A2 in L. destruct p; [destruct PW; contradiction|]. cbn [app length] in L. rewrite !app_length in L. lia.
        * destruct rest; [exact I|exact N2].
        * rewrite A1, A2. destruct ps as [|q ps].
          -- inversion H; subst rest. rewrite app_nil_r. exists [p]. constructor; auto.
          -- exists (p :: q :: ps). constructor; auto. intros Q ->. destruct (spaced_start _ _ _ H) as [A [_ [C _]]]. specialize (A Q). cbn [app] in A2. subst r.
             destruct rest as [|d rest]; [contradiction|]. cbn in A. congruence.
      + destruct (span (fun x => negb (isw cc x)) (c :: text)) as [r rest] eqn:E1. destruct (strip_split r) as [p [sp [E2 [F2 N2]]]].
        pose proof (span_app _ _ _ _ E1) as A1. pose proof (span_all _ _ _ _ E1) as F1. pose proof (span_next _ _ _ _ E1) as N1.
        assert (R : exists r', r = c :: r').
        { cbn [span] in E1. rewrite W in E1. cbn in E1. destruct (span _ text). injection E1 as <- <-. eauto. }
        destruct R as [r' ->]. cbn in B.
        assert (PP : is_punctuation cc p).
        { destruct p as [|d p].
          - exfalso. cbn in E2. subst sp. inversion F2; subst. congruence.
          - cbn in E2. injection E2 as <- E2. split; [discriminate|]. split; [|split; [exact B|exact N2]].
            rewrite E2 in F1. change (c :: p ++ sp) with ((c :: p) ++ sp) in F1. apply Forall_app in F1. apply F1. }
        destruct (IH rest) as [ps H].
        * rewrite A1 in L. cbn [app length] in L. rewrite app_length in L. lia.
        * destruct rest as [|d rest]; [exact I|]. cbn in *. destruct (iss cc d) eqn:E; [|reflexivity]. rewrite (CC d E) in N1. discriminate.
        * rewrite A1, E2, <- app_assoc. destruct ps as [|q ps].
          -- inversion H; subst rest. rewrite app_nil_r. exists [p]. constructor; auto.
          -- exists (p :: q :: ps). destruct (spaced_start _ _ _ H) as [_ [A [C [_ [Q|Q]]]]]; [apply spaced_punctuation; auto|]. exfalso. specialize (A Q).
             destruct rest as [|d rest]; [contradiction|]. cbn in *. rewrite A in N1. discriminate.
  Qed.
End Space.
