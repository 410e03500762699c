(** Proofs about the tokenizer. *)
From Verif Require Import Py TokenModel TokenSpec.

Lemma str_eqb_eq : forall a b, str_eqb a b = true <-> a = b.
Proof.
  induction a; destruct b; simpl; split; intros; try congruence.
  - apply andb_true_iff in H as [H1 H2]. apply N.eqb_eq in H1. apply IHa in H2. congruence.
  - injection H as -> ->. rewrite N.eqb_refl. apply IHa. reflexivity.
Qed.

Lemma span_app : forall {A} (p : A -> bool) l a b, span p l = (a, b) -> l = a ++ b.
Proof.
  induction l; simpl; intros.
  - injection H as <- <-. reflexivity.
  - destruct (p a).
    + destruct (span p l) eqn:E. injection H as <- <-. simpl. f_equal. auto.
    + injection H as <- <-. reflexivity.
Qed.

Lemma span_all : forall {A} (p : A -> bool) l a b, span p l = (a, b) -> Forall (fun c => p c = true) a.
Proof.
  induction l; simpl; intros.
  - injection H as <- <-. constructor.
  - destruct (p a) eqn:P.
    + destruct (span p l) eqn:E. injection H as <- <-. constructor; auto. eapply IHl; eauto.
    + injection H as <- <-. constructor.
Qed.

Lemma span_next : forall {A} (p : A -> bool) l a b, span p l = (a, b) ->
  match b with [] => True | c :: _ => p c = false end.
Proof.
  induction l; simpl; intros.
  - injection H as <- <-. exact I.
  - destruct (p a) eqn:P.
    + destruct (span p l) eqn:E. injection H as <- <-. eapply IHl; eauto.
    + injection H as <- <-. exact P.
Qed.

Section T.
  Variable cc : cclass.

  Lemma tokenize_aux_concat : forall fuel s, length s <= fuel -> concat (tokenize_aux cc fuel s) = s.
  Proof.
    induction fuel; intros s Hs; simpl.
    - destruct s; simpl in Hs; [reflexivity | lia].
    - destruct s as [|c s]; [reflexivity|].
      destruct (isw cc c) eqn:W.
      + destruct (span (isw cc) (c :: s)) as [w r] eqn:E1.
        destruct (span (iss cc) r) as [sp r'] eqn:E2.
        pose proof (span_app _ _ _ _ E1) as A1. pose proof (span_app _ _ _ _ E2) as A2.
        assert (L : w <> []).
        { simpl in E1. rewrite W in E1. destruct (span (isw cc) s). injection E1 as <- <-. discriminate. }
        simpl. rewrite IHfuel.
        * rewrite <- app_assoc, <- A2, <- A1. reflexivity.
        * rewrite A1, A2 in Hs. destruct w; [congruence|]. simpl in Hs. rewrite !app_length in Hs. lia.
      + destruct (span (fun x => negb (isw cc x)) (c :: s)) as [n r] eqn:E1.
        pose proof (span_app _ _ _ _ E1) as A1.
        assert (L : n <> []).
        { simpl in E1. rewrite W in E1. simpl in E1. destruct (span _ s). injection E1 as <- <-. discriminate. }
        simpl. rewrite IHfuel; [congruence|].
        rewrite A1 in Hs. destruct n; [congruence|]. simpl in Hs. rewrite !app_length in Hs. lia.
  Qed.

  Lemma tokenize_aux_legal : forall fuel s i t, length s <= fuel ->
    nth_error (tokenize_aux cc fuel s) i = Some t ->
    legal_token cc t (concat (skipn (S i) (tokenize_aux cc fuel s))).
  Proof.
    induction fuel; intros s i t Hs H.
    - simpl in H. destruct i; discriminate.
    - simpl in *. destruct s as [|c s]; [destruct i; discriminate|].
      destruct (isw cc c) eqn:W.
      + destruct (span (isw cc) (c :: s)) as [w r] eqn:E1.
        destruct (span (iss cc) r) as [sp r'] eqn:E2.
        pose proof (span_app _ _ _ _ E1) as A1. pose proof (span_app _ _ _ _ E2) as A2.
        assert (L : w <> []).
        { simpl in E1. rewrite W in E1. destruct (span (isw cc) s). injection E1 as <- <-. discriminate. }
        assert (Hr : length r' <= fuel).
        { rewrite A1, A2 in Hs. destruct w; [congruence|]. simpl in Hs. rewrite !app_length in Hs. lia. }
        destruct i as [|i].
        * simpl in H. injection H as <-. simpl. rewrite tokenize_aux_concat by assumption.
          apply (legal_word cc _ _ w sp); auto.
          -- apply (span_all _ _ _ _ E1).
          -- apply (span_all _ _ _ _ E2).
          -- rewrite <- A2. apply (span_next _ _ _ _ E1).
          -- apply (span_next _ _ _ _ E2).
        * simpl in H. simpl. apply IHfuel; assumption.
      + destruct (span (fun x => negb (isw cc x)) (c :: s)) as [n r] eqn:E1.
        pose proof (span_app _ _ _ _ E1) as A1.
        assert (L : n <> []).
        { simpl in E1. rewrite W in E1. simpl in E1. destruct (span _ s). injection E1 as <- <-. discriminate. }
        assert (Hr : length r <= fuel).
        { rewrite A1 in Hs. destruct n; [congruence|]. simpl in Hs. rewrite !app_length in Hs. lia. }
        destruct i as [|i].
        * simpl in H. injection H as <-. simpl. rewrite tokenize_aux_concat by assumption.
          apply legal_other; auto.
          -- apply (span_all _ _ _ _ E1).
          -- pose proof (span_next _ _ _ _ E1). unfold next_is. destruct r; auto.
             apply negb_false_iff; assumption.
        * simpl in H. simpl. apply IHfuel; assumption.
  Qed.

  Lemma tokenize_concat : forall s, concat (tokenize cc s) = s.
  Proof. intros. apply tokenize_aux_concat. lia. Qed.

  Lemma tokenize_legal : forall s i t,
    nth_error (tokenize cc s) i = Some t ->
    legal_token cc t (concat (skipn (S i) (tokenize cc s))).
  Proof. intros. apply tokenize_aux_legal; [lia | assumption]. Qed.

  Lemma rstrip_spec : forall s, without_trailing_space cc s (rstrip cc s).
  Proof.
    intros. unfold rstrip, without_trailing_space.
    destruct (span (iss cc) (rev s)) as [a b] eqn:E. simpl.
    exists (rev a). pose proof (span_app _ _ _ _ E) as A. split; [|split].
    - rewrite <- rev_app_distr, <- A, rev_involutive. reflexivity.
    - apply Forall_rev. apply (span_all _ _ _ _ E).
    - rewrite rev_involutive. apply (span_next _ _ _ _ E).
  Qed.

  Lemma plain_witness : forall c sigil text,
    add_plain_witness cc c sigil text =
    Ok (c ++ [{| w_sigil := sigil; w_toks := map (plain_token cc) (tokenize cc text) |}]).
  Proof. reflexivity. Qed.

  Lemma plain_t : forall s, data_str "t" (t0_data (plain_token cc s)) = Some s.
  Proof. reflexivity. Qed.
  Lemma plain_n : forall s, data_str "n" (t0_data (plain_token cc s)) = Some (rstrip cc s).
  Proof. reflexivity. Qed.
End T.
