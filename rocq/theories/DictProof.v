(** Witnesses given as data: create_from_dict and Witness.__init__ (C46). *)
From Verif Require Import Py TokenModel TokenSpec TokenProof Lib OutputProof.
Open Scope list_scope.
Open Scope nat_scope.

Lemma key_iff : forall (k : str) (v : jval) d, keys_once d -> (dget str_eqb k d = Some v <-> In (k, v) d).
Proof. intros k v d N. split; [apply (dget_In _ str_eqb_ok)|apply (In_dget _ str_eqb_ok); exact N]. Qed.

Lemma key_absent : forall (k : str) (d : jdict), dget str_eqb k d = None <-> ~ In k (map fst d).
Proof. intros. apply (dget_None _ str_eqb_ok). Qed.

Lemma key_clash : forall (k : str) (v v' : jval) d, keys_once d -> In (k, v) d -> In (k, v') d -> v = v'.
Proof. intros k v v' d N A B. apply (key_iff k v d N) in A. apply (key_iff k v' d N) in B. congruence. Qed.

Lemma mapM_compose : forall l r, (ds <- mapM as_dict l ;; ts <- mapM token_init ds ;; mapM tok_str_of ts) = Ok r <->
  Forall2 (fun e t => exists d v, e = JObj d /\ token_init d = Ok v /\ tok_str_of v = Ok t) l r.
Proof.
  intros l r. split.
  - intros H. apply bind_ok in H as [ds [H1 H]]. apply bind_ok in H as [ts [H2 H3]].
    apply mapM_Forall2 in H1, H2, H3. revert ts r H2 H3. induction H1 as [|e d l ds E1 F1 IH]; intros ts r H2 H3.
    + inversion H2; subst. inversion H3; subst. constructor.
    + inversion H2 as [|? v ? ts' E2 F2]; subst. inversion H3 as [|? t ? r' E3 F3]; subst. constructor; [|eapply IH; eassumption].
      destruct e; try discriminate. injection E1 as ->. eauto.
  - induction 1 as [|e t l r [d [v [-> [E2 E3]]]] F IH]; [reflexivity|].
    apply bind_ok in IH as [ds [H1 H]]. apply bind_ok in H as [ts [H2 H3]].
    cbn [mapM as_dict bind]. rewrite H1. cbn [bind mapM]. rewrite E2. cbn [bind]. rewrite H2. cbn [bind mapM]. rewrite E3. cbn [bind]. rewrite H3. reflexivity.
Qed.

Lemma token_read : forall d t, keys_once d ->
  ((exists v, token_init d = Ok v /\ tok_str_of v = Ok t) <-> t0_data t = d /\ given_reading d (t0_str t)).
Proof.
  intros d t N. unfold token_init. split.
  - intros [v [H1 H2]]. destruct (dget str_eqb (lit "n") d) as [x|] eqn:E1.
    + injection H1 as <-. unfold tok_str_of in H2. cbn [fst snd] in H2. destruct x; try discriminate. injection H2 as <-. cbn [t0_data t0_str].
      split; [reflexivity|]. apply given_n. apply key_iff; assumption.
    + destruct (dget str_eqb (lit "t") d) as [x|] eqn:E2; [|discriminate]. injection H1 as <-. unfold tok_str_of in H2. cbn [fst snd] in H2.
      destruct x; try discriminate. injection H2 as <-. cbn [t0_data t0_str]. split; [reflexivity|]. apply given_t; [apply key_absent; assumption|apply key_iff; assumption].
  - intros [E [H|H1 H2]].
    + apply (key_iff _ _ _ N) in H. rewrite H. eexists. split; [reflexivity|]. unfold tok_str_of. cbn [fst snd]. rewrite <- E. destruct t. reflexivity.
    + apply key_absent in H1. rewrite H1. apply (key_iff _ _ _ N) in H2. rewrite H2. eexists. split; [reflexivity|]. unfold tok_str_of. cbn [fst snd]. rewrite <- E. destruct t. reflexivity.
Qed.

Lemma Forall2_eq : forall {A B} (P Q : A -> B -> Prop) l r, (forall x y, In x l -> (P x y <-> Q x y)) -> (Forall2 P l r <-> Forall2 Q l r).
Proof.
  intros A B P Q l r H. split; intros F.
  - induction F as [|x y l r E F IH]; constructor; [apply H; [left; reflexivity|assumption]|apply IH; intros; apply H; right; assumption].
  - induction F as [|x y l r E F IH]; constructor; [apply H; [left; reflexivity|assumption]|apply IH; intros; apply H; right; assumption].
Qed.

Lemma tokens_read : forall l r, (forall d, In (JObj d) l -> keys_once d) ->
  ((ds <- mapM as_dict l ;; ts <- mapM token_init ds ;; mapM tok_str_of ts) = Ok r <->
   Forall2 (fun e t => e = JObj (t0_data t) /\ given_reading (t0_data t) (t0_str t)) l r).
Proof.
  intros l r N. rewrite mapM_compose. apply Forall2_eq. intros e t He. split.
  - intros [d [v [-> [H1 H2]]]]. destruct (proj1 (token_read d t (N d He)) (ex_intro _ v (conj H1 H2))) as [E G]. rewrite E in *. auto.
  - intros [-> G]. exists (t0_data t). destruct (proj2 (token_read (t0_data t) t (N _ He)) (conj eq_refl G)) as [v [H1 H2]]. eauto.
Qed.

Lemma witness_read : forall cc d w, keys_once d -> (forall l' d', In (lit "tokens", JArr l') d -> In (JObj d') l' -> keys_once d') ->
  (witness_init cc d = Ok w <-> entry_witness cc (JObj d) w).
Proof.
  intros cc d w N NT. unfold witness_init. split.
  - intros H. destruct (dget str_eqb (lit "id") d) as [[]|] eqn:E1; try discriminate.
    destruct (dget str_eqb (lit "content") d) as [v|] eqn:E2.
    + destruct v; try discriminate. injection H as <-. apply key_iff in E1, E2; try assumption.
      eapply (entry_content _ _ _ d _ []); [reflexivity|assumption|eassumption|reflexivity].
    + apply key_absent in E2. destruct (dget str_eqb (lit "tokens") d) as [v|] eqn:E3.
      * destruct v as [| | | |lv|]; try discriminate. apply key_iff in E1, E3; try assumption.
        assert (H' : exists r, (ds <- mapM as_dict lv ;; ts <- mapM token_init ds ;; mapM tok_str_of ts) = Ok r /\ w = {| w_sigil := s; w_toks := r |}).
        { destruct (mapM as_dict lv); [|discriminate]. cbn [bind] in *. destruct (mapM token_init a); [|discriminate]. cbn [bind] in *.
          destruct (mapM tok_str_of a0); [|discriminate]. injection H as <-. eauto. }
        destruct H' as [r [H' ->]]. eapply (entry_tokens _ _ _ d lv); [reflexivity|assumption|assumption|assumption|].
        apply tokens_read in H'; [assumption|]. intros d' Hd. apply (NT lv d'); assumption.
      * injection H as <-. apply key_iff in E1; [|assumption]. apply key_absent in E3. eapply entry_nothing; [reflexivity|assumption|assumption|assumption|reflexivity].
  - intros [d' s c Q E1 E2 E3|d' l Q E1 E2 E3 E4|d' Q E1 E2 E3 E4]; injection Q as <-.
    + apply key_iff in E1, E2; try assumption. rewrite E1, E2. rewrite plain_witness in E3. injection E3 as E3. apply app_inv_head in E3. congruence.
    + apply key_iff in E1, E3; try assumption. apply key_absent in E2. rewrite E1, E2, E3.
      apply tokens_read in E4; [|intros d' Hd; apply (NT l d'); [apply key_iff|]; assumption].
      destruct (mapM as_dict l); [|discriminate]. cbn [bind] in *. destruct (mapM token_init a); [|discriminate]. cbn [bind] in *.
      destruct (mapM tok_str_of a0); [|discriminate]. injection E4 as ->. destruct w; reflexivity.
    + apply key_iff in E1; [|assumption]. apply key_absent in E2, E3. rewrite E1, E2, E3. destruct w; cbn in *; subst; reflexivity.
Qed.

Lemma read_fold : forall cc l c0 c, foldM (fun c v => d <- as_dict v ;; add_witness cc c d) l c0 = Ok c <->
  exists r, c = c0 ++ r /\ Forall2 (fun v w => exists d, v = JObj d /\ witness_init cc d = Ok w) l r.
Proof.
  induction l as [|v l IH]; intros c0 c; cbn [foldM].
  - split.
    + intros H. injection H as <-. exists []. rewrite app_nil_r. split; [reflexivity|constructor].
    + intros [r [-> F]]. inversion F; subst. rewrite app_nil_r. reflexivity.
  - split.
    + intros H. apply bind_ok in H as [c1 [H1 H2]]. apply bind_ok in H1 as [d [H0 H1]]. destruct v; try discriminate. injection H0 as ->.
      unfold add_witness in H1. apply bind_ok in H1 as [w [H1 H3]]. injection H3 as <-. apply IH in H2 as [r [-> F]].
      exists (w :: r). rewrite <- app_assoc. split; [reflexivity|]. constructor; eauto.
    + intros [r [-> F]]. inversion F as [|? w ? r' [d [-> H]] F']; subst. cbn [as_dict bind]. unfold add_witness. rewrite H. cbn [bind].
      apply IH. exists r'. rewrite <- app_assoc. auto.
Qed.

Lemma first_prefix : forall {A} limit (l l' : list A), first_of limit l l' <-> l' = py_prefix l limit.
Proof.
  intros A limit l l'. unfold py_prefix. split.
  - intros H. inversion H as [l0|k l1 l2 L|k l0 L|k l1 l2 K L|k l0 K L]; subst; try reflexivity.
    + replace (Z.ltb (Z.of_nat (length l')) 0) with false by (symmetry; apply Z.ltb_ge; lia). rewrite Nat2Z.id, firstn_app, Nat.sub_diag, firstn_all. cbn. rewrite app_nil_r. reflexivity.
    + replace (Z.ltb (Z.of_nat k) 0) with false by (symmetry; apply Z.ltb_ge; lia). rewrite Nat2Z.id, firstn_all2 by assumption. reflexivity.
    + replace (Z.ltb (- Z.of_nat (length l2)) 0) with true by (symmetry; apply Z.ltb_lt; lia). rewrite app_length.
      replace (Z.to_nat (Z.of_nat (length l' + length l2) + - Z.of_nat (length l2))) with (length l') by lia.
      rewrite firstn_app, Nat.sub_diag, firstn_all. cbn. rewrite app_nil_r. reflexivity.
    + replace (Z.ltb (- Z.of_nat k) 0) with true by (symmetry; apply Z.ltb_lt; lia).
      replace (Z.to_nat (Z.of_nat (length l) + - Z.of_nat k)) with 0 by lia. reflexivity.
  - intros ->. destruct limit as [z|]; [|constructor]. destruct (Z.ltb_spec z 0) as [L|L].
    + replace z with (- Z.of_nat (Z.to_nat (- z)))%Z by lia. remember (Z.to_nat (- z)) as k.
      destruct (Nat.le_gt_cases (length l) k) as [Q|Q].
      * replace (Z.to_nat (Z.of_nat (length l) + - Z.of_nat k)) with 0 by lia. cbn [firstn]. apply first_none; [lia|assumption].
      * replace (Z.to_nat (Z.of_nat (length l) + - Z.of_nat k)) with (length l - k) by lia.
        rewrite <- (firstn_skipn (length l - k) l) at 1. apply first_drop; [lia|]. rewrite skipn_length. lia.
    + replace z with (Z.of_nat (Z.to_nat z)) by lia. remember (Z.to_nat z) as k. rewrite Nat2Z.id.
      destruct (Nat.le_gt_cases (length l) k) as [Q|Q].
      * rewrite firstn_all2 by assumption. apply first_short. assumption.
      * rewrite <- (firstn_skipn k l) at 1. apply first_few. rewrite firstn_length. lia.
Qed.

Lemma prefix_incl : forall {A} limit (l : list A) x, In x (py_prefix l limit) -> In x l.
Proof.
  intros A [z|] l x H; [|exact H]. unfold py_prefix in H.
  rewrite <- (firstn_skipn (Z.to_nat (if Z.ltb z 0 then Z.of_nat (length l) + z else z)) l). apply in_or_app. left. exact H.
Qed.

Theorem from_dict : forall cc data limit l c, keys_once data -> In (lit "witnesses", JArr l) data -> entries_once l ->
  (create_from_dict cc data limit = Ok c <-> exists l', first_of limit l l' /\ Forall2 (entry_witness cc) l' c).
Proof.
  intros cc data limit l c N H EO. apply (key_iff _ _ _ N) in H. unfold create_from_dict. rewrite H.
  rewrite read_fold. cbn [collation_empty app].
  assert (Q : forall r, Forall2 (fun v w => exists d, v = JObj d /\ witness_init cc d = Ok w) (py_prefix l limit) r <-> Forall2 (entry_witness cc) (py_prefix l limit) r).
  { intros r. apply Forall2_eq. intros v w Hv. apply prefix_incl in Hv. split.
    - intros [d [-> E]]. destruct (EO d Hv) as [A B]. apply witness_read; assumption.
    - intros E. assert (exists d, v = JObj d) as [d ->] by (destruct E; eauto). destruct (EO d Hv) as [A B]. exists d. split; [reflexivity|]. apply witness_read; assumption. }
  split.
  - intros [r [-> F]]. exists (py_prefix l limit). split; [apply first_prefix; reflexivity|]. apply Q. exact F.
  - intros [l' [F1 F2]]. apply first_prefix in F1. subst l'. exists c. split; [reflexivity|]. apply Q. exact F2.
Qed.

Lemma from_dict_key : forall cc data limit c, create_from_dict cc data limit = Ok c -> exists l, In (lit "witnesses", JArr l) data.
Proof.
  intros cc data limit c H. unfold create_from_dict in H. destruct (dget str_eqb (lit "witnesses") data) as [[]|] eqn:E; try discriminate.
  apply (dget_In _ str_eqb_ok) in E. eauto.
Qed.
