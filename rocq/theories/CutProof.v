(** The tokens of a text and of its parts (C97). *)
From Verif Require Import Py TokenModel TokenSpec TokenProof CutSpec.
From Verif Require SpaceProof.
Open Scope list_scope.

Section Cut.
  Variable cc : cclass.

  Lemma all_legal_cons : forall t ts, all_legal cc (t :: ts) <-> legal_token cc t (concat ts) /\ all_legal cc ts.
  Proof.
    intros t ts. split.
    - intros H. split; [exact (H 0 t eq_refl)|]. intros i u Hu. exact (H (S i) u Hu).
    - intros [H1 H2] [|i] u Hu; [injection Hu as <-; exact H1|]. exact (H2 i u Hu).
  Qed.
  Lemma all_legal_nil : all_legal cc [].
  Proof. intros [|i] t H; discriminate. Qed.

  Lemma legal_not_nil : forall t post, legal_token cc t post -> t <> [].
  Proof. intros t post [w sp -> H _ _ _ _|H _ _]; [destruct w; [contradiction|discriminate]|exact H]. Qed.

  Lemma span_at : forall {A} (p : A -> bool) a b, Forall (fun c => p c = true) a -> match b with [] => True | c :: _ => p c = false end -> span p (a ++ b) = (a, b).
  Proof. intros A p a b Ha Hb. induction Ha as [|x a Hx Ha IH]; cbn [app span]; [destruct b as [|c b]; [reflexivity|cbn [span]; rewrite Hb; reflexivity]|]. rewrite Hx, IH. reflexivity. Qed.

  (** Legal tokens are the tokens. *)
  Lemma legal_unique_aux : forall fuel ts, all_legal cc ts -> length (concat ts) <= fuel -> tokenize_aux cc fuel (concat ts) = ts.
  Proof.
    intros fuel. induction fuel as [|fuel IH]; intros ts H L.
    - destruct ts as [|t ts]; [reflexivity|]. apply all_legal_cons in H as [H _]. apply legal_not_nil in H. destruct t; [contradiction|cbn in L; lia].
    - destruct ts as [|t ts]; [reflexivity|]. apply all_legal_cons in H as [H1 H2]. pose proof (legal_not_nil _ _ H1) as NE. cbn [concat] in L |- *. rewrite app_length in L.
      assert (L2 : length (concat ts) <= fuel) by (destruct t; [contradiction|cbn [length] in L; lia]).
      destruct H1 as [w sp E Hw Aw As N1 N2|Ht At N1].
      + destruct w as [|c w]; [contradiction|]. subst t. rewrite <- app_assoc. cbn [app tokenize_aux]. inversion Aw as [|? ? Wc Aw']; subst. rewrite Wc.
        change (c :: w ++ sp ++ concat ts) with ((c :: w) ++ (sp ++ concat ts)). rewrite (span_at (isw cc) (c :: w) (sp ++ concat ts) Aw).
        2:{ exact N1. }
        rewrite (span_at (iss cc) sp (concat ts) As). 2:{ exact N2. }
        rewrite IH by assumption. reflexivity.
      + destruct t as [|c t]; [contradiction|]. cbn [app tokenize_aux]. inversion At as [|? ? Wc At']; subst. apply negb_true_iff in Wc. rewrite Wc.
        change (c :: t ++ concat ts) with ((c :: t) ++ concat ts). rewrite (span_at (fun x => negb (isw cc x)) (c :: t) (concat ts) At).
        2:{ unfold next_is in N1. destruct (concat ts); [exact I|rewrite N1; reflexivity]. }
        rewrite IH by assumption. reflexivity.
  Qed.
  Lemma legal_unique : forall ts, all_legal cc ts -> tokenize cc (concat ts) = ts.
  Proof. intros ts H. apply legal_unique_aux; [assumption|lia]. Qed.
  Lemma tokenize_all_legal : forall s, all_legal cc (tokenize cc s).
  Proof. intros s i t. apply tokenize_legal. Qed.

  Lemma legal_more : forall t post b, post <> [] -> legal_token cc t post -> legal_token cc t (post ++ b).
  Proof.
    intros t post b NE [w sp E Hw Aw As N1 N2|Ht At N1].
    - apply (legal_word cc _ _ w sp); try assumption; [|destruct post; [contradiction|exact N2]]. destruct sp; [destruct post; [contradiction|exact N1]|exact N1].
    - apply legal_other; try assumption. destruct post; [contradiction|exact N1].
  Qed.
  Lemma legal_part : forall t post, legal_token cc t post -> legal_token cc t [].
  Proof.
    intros t post [w sp E Hw Aw As N1 N2|Ht At N1].
    - apply (legal_word cc _ _ w sp); try assumption; [|exact I]. rewrite app_nil_r. destruct sp; [exact I|exact N1].
    - apply legal_other; try assumption. exact I.
  Qed.
  Lemma legal_less : forall t post b, legal_token cc t (post ++ b) -> legal_token cc t post.
  Proof.
    intros t [|x post] b H; [exact (legal_part _ _ H)|]. destruct H as [w sp E Hw Aw As N1 N2|Ht At N1].
    - apply (legal_word cc _ _ w sp); try assumption. destruct sp; exact N1.
    - apply legal_other; assumption.
  Qed.

  Lemma concat_nil : forall ts, all_legal cc ts -> concat ts = [] -> ts = [].
  Proof. intros [|t ts] H E; [reflexivity|]. apply all_legal_cons in H as [H _]. apply legal_not_nil in H. cbn in E. apply app_eq_nil in E as [E _]. contradiction. Qed.

  (** Legal tokens followed by legal tokens. *)
  Lemma all_legal_app : forall ts us, all_legal cc (ts ++ us) <-> all_legal cc ts /\ all_legal cc us /\ (forall t, ts <> [] -> last ts t = t -> legal_token cc t (concat us)).
  Proof.
    intros ts us. induction ts as [|t ts IH].
    - cbn [app]. split; [intros H; split; [apply all_legal_nil|split; [exact H|intros t H1; contradiction]]|intros [_ [H _]]; exact H].
    - cbn [app]. rewrite all_legal_cons, IH, all_legal_cons, concat_app. split.
      + intros [H1 [H2 [H3 H4]]]. split; [split; [exact (legal_less _ _ _ H1)|exact H2]|]. split; [exact H3|]. intros u _ E. destruct ts as [|t' ts].
        * cbn in E, H1. subst u. exact H1.
        * apply H4; [discriminate|]. exact E.
      + intros [[H1 H2] [H3 H4]]. destruct ts as [|t' ts].
        * split; [cbn; apply (H4 t); [discriminate|reflexivity]|]. split; [exact H2|]. split; [exact H3|intros u H5; contradiction].
        * split; [apply legal_more; [intros E; apply (concat_nil _ H2) in E; discriminate|exact H1]|]. split; [exact H2|]. split; [exact H3|]. intros u _ E. apply H4; [discriminate|exact E].
  Qed.

  (** The last token of a text, and the character after it. *)
  Lemma last_legal : cclass_ok cc -> forall ts t y b, all_legal cc (ts ++ [t]) ->
    (legal_token cc t (y :: b) <-> token_ends cc (concat ts ++ t) y).
  Proof.
    intros OK ts t y b H. apply all_legal_app in H as [H1 [H2 H3]]. apply all_legal_cons in H2 as [H2 _]. cbn [concat] in H2.
    assert (LAST : forall p x, concat ts ++ t = p ++ [x] -> exists t', t = t' ++ [x]).
    { intros p x E. pose proof (legal_not_nil _ _ H2) as NE. destruct (exists_last NE) as [t' [z ->]]. rewrite app_assoc in E. apply app_inj_tail in E as [_ ->]. exists t'. reflexivity. }
    split.
    - intros L. split.
      + intros Wy [p [x [E Wx]]]. destruct (LAST p x E) as [t' ->]. destruct L as [w sp E2 Hw Aw As N1 N2|Ht At N1].
        * destruct sp as [|s sp]; [cbn in N1; congruence|]. assert (Q : In x (s :: sp)).
          { destruct (@exists_last _ (s :: sp)) as [sp' [z E3]]; [discriminate|]. rewrite E3 in E2 |- *. rewrite app_assoc in E2. apply app_inj_tail in E2 as [_ ->]. apply in_or_app. right. left. reflexivity. }
          unfold all_chars in As. rewrite Forall_forall in As. specialize (OK x (As x Q)). congruence.
        * unfold all_chars in At. rewrite Forall_forall in At. specialize (At x ltac:(apply in_or_app; right; left; reflexivity)). rewrite Wx in At. discriminate.
      + intros Wy. destruct L as [w sp E2 Hw Aw As N1 N2|Ht At N1]; [|cbn in N1; congruence]. split; [|exact N2].
        destruct (exists_last Hw) as [w' [x ->]]. exists (concat ts ++ w'), x, sp. split; [subst t; rewrite <- !app_assoc; reflexivity|]. split; [|exact As].
        unfold all_chars in Aw. rewrite Forall_forall in Aw. apply Aw. apply in_or_app. right. left. reflexivity.
    - intros [T1 T2]. destruct (isw cc y) eqn:Wy.
      + specialize (T1 eq_refl). destruct H2 as [w sp E2 Hw Aw As N1 N2|Ht At N1].
        * apply (legal_word cc _ _ w sp); try assumption.
          -- destruct sp as [|s sp]; [|rewrite app_nil_r in N1; exact N1]. exfalso. apply T1. destruct (exists_last Hw) as [w' [x ->]]. exists (concat ts ++ w'), x. rewrite app_nil_r in E2. subst t. split; [rewrite <- app_assoc; reflexivity|].
             unfold all_chars in Aw. rewrite Forall_forall in Aw. apply Aw. apply in_or_app. right. left. reflexivity.
          -- cbn. destruct (iss cc y) eqn:Sy; [specialize (OK y Sy); congruence|reflexivity].
        * apply legal_other; assumption.
      + destruct (T2 eq_refl) as [[p [x [sp [E [Wx As]]]]] Sy]. destruct H2 as [w sp' E2 Hw Aw As' N1 N2|Ht At N1].
        * apply (legal_word cc _ _ w sp'); try assumption. destruct sp' as [|s sp']; [exact Wy|]. rewrite app_nil_r in N1. exact N1.
        * exfalso.
          assert (SUF : exists s1, sp = s1 ++ t /\ concat ts = p ++ x :: s1).
          { clear - E At Wx. revert sp E. induction t as [|z t IH] using rev_ind; intros sp E.
            - exists sp. split; [rewrite app_nil_r; reflexivity|]. rewrite app_nil_r in E. exact E.
            - apply Forall_app in At as [At Az]. destruct sp as [|s sp] using rev_ind.
              + rewrite app_assoc in E. apply app_inj_tail in E as [_ ->]. inversion Az as [|? ? Q _]; subst. rewrite Wx in Q. discriminate.
              + clear IHsp. change (p ++ x :: sp ++ [s]) with (p ++ (x :: sp) ++ [s]) in E. rewrite !app_assoc in E. apply app_inj_tail in E as [E ->]. destruct (IH At sp E) as [s1 [-> E2]]. exists s1. split; [rewrite app_assoc; reflexivity|exact E2]. }
          destruct SUF as [s1 [-> E2]]. destruct ts as [|t0 ts0]; [destruct p; discriminate E2|].
          assert (L0 : legal_token cc (last (t0 :: ts0) t0) (concat [t])).
          { destruct (@exists_last _ (t0 :: ts0)) as [ts1 [t1 Q]]; [discriminate|]. rewrite Q. rewrite last_last. apply H3; [discriminate|]. rewrite Q. apply last_last. }
          cbn [concat] in L0. rewrite app_nil_r in L0. destruct t as [|z t]; [contradiction|]. inversion At as [|? ? Wz _]; subst. apply negb_true_iff in Wz.
          apply Forall_app in As as [_ As]. inversion As as [|? ? Sz _]; subst.
          destruct L0 as [? ? _ _ _ _ _ N2|_ _ N2]; cbn in N2; congruence.
  Qed.

  Lemma cut : cclass_ok cc -> forall a y b, a <> [] -> (tokenize cc (a ++ y :: b) = tokenize cc a ++ tokenize cc (y :: b) <-> token_ends cc a y).
  Proof.
    intros OK a y b NE. assert (NT : tokenize cc a <> []) by (intros Q; pose proof (tokenize_concat cc a) as C; rewrite Q in C; cbn in C; congruence).
    destruct (exists_last NT) as [ts [t E]]. pose proof (tokenize_all_legal a) as LA. rewrite E in LA.
    pose proof (last_legal OK ts t y b LA) as K. pose proof (tokenize_concat cc a) as CA. rewrite E, concat_app in CA. cbn [concat] in CA. rewrite app_nil_r in CA. rewrite CA in K.
    rewrite <- K. split.
    - intros Q. pose proof (tokenize_all_legal (a ++ y :: b)) as L. rewrite Q, E in L. apply all_legal_app in L as [_ [_ L]]. rewrite tokenize_concat in L. apply (L t); [destruct ts; discriminate|apply last_last].
    - intros L. rewrite <- (tokenize_concat cc a) at 1. rewrite <- (tokenize_concat cc (y :: b)) at 1. rewrite <- concat_app. apply legal_unique. apply all_legal_app. split; [apply tokenize_all_legal|]. split; [apply tokenize_all_legal|].
      rewrite tokenize_concat, E. intros u _ Q. rewrite last_last in Q. subst u. exact L.
  Qed.

  Lemma slice : forall text l1 l2 l3, tokenize cc text = l1 ++ l2 ++ l3 -> tokenize cc (concat l2) = l2.
  Proof.
    intros text l1 l2 l3 E. apply legal_unique. pose proof (tokenize_all_legal text) as L. rewrite E in L. apply all_legal_app in L as [_ [L _]]. apply all_legal_app in L as [L _]. exact L.
  Qed.

  Lemma last_token : forall a b ts t, tokenize cc a = ts ++ [t] -> tokenize cc (a ++ b) = ts ++ tokenize cc (t ++ b).
  Proof.
    intros a b ts t E. pose proof (tokenize_all_legal a) as L. rewrite E in L. pose proof (tokenize_concat cc a) as C. rewrite E, concat_app in C. cbn [concat] in C. rewrite app_nil_r in C.
    apply all_legal_app in L as [L1 [L2 L3]]. apply all_legal_cons in L2 as [L2 _]. pose proof (legal_not_nil _ _ L2) as NE. cbn [concat] in L3. rewrite app_nil_r in L3.
    assert (T : a ++ b = concat (ts ++ tokenize cc (t ++ b))) by (rewrite concat_app, tokenize_concat, <- C, app_assoc; reflexivity).
    rewrite T. apply legal_unique. apply all_legal_app. split; [exact L1|]. split; [apply tokenize_all_legal|]. intros u H Q. rewrite tokenize_concat. apply legal_more; [exact NE|]. apply L3; assumption.
  Qed.
End Cut.
