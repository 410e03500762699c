(** The map from witnesses to block instances. *)
From Verif Require Import Py Lib TokenModel SuffixModel IndexModel RadixProof DC3Proof BlockProof SuffixProof
  IndexProof BlockText.
From Coq Require Import Permutation Sorted.

Lemma foldM_ok_inv : forall {A B} (f : B -> A -> res B) (P : list A -> B -> Prop) l b0 b1,
  foldM f l b0 = Ok b1 -> P [] b0 ->
  (forall pre x b b', In x l -> f b x = Ok b' -> P pre b -> P (pre ++ [x]) b') ->
  P l b1.
Proof.
  intros A B f P l b0 b1 H H0 HS.
  assert (G : forall post pre b, (forall x, In x post -> In x l) -> foldM f post b = Ok b1 -> P pre b -> P (pre ++ post) b1).
  { induction post as [|x post IH]; intros pre b HI E Hb.
    - simpl in E. injection E as <-. rewrite app_nil_r. assumption.
    - simpl in E. apply bind_ok in E as [b' [E1 E2]].
      replace (pre ++ x :: post) with ((pre ++ [x]) ++ post) by (rewrite <- app_assoc; reflexivity).
      apply IH with b'; auto.
      + intros. apply HI. right. assumption.
      + apply HS with b; auto. apply HI. left. reflexivity. }
  apply (G l [] b0); auto.
Qed.

Definition inst_of (m : list (str * list (nat * block))) (sg : str) (pb : nat * block) : Prop :=
  exists l, dget str_eqb sg m = Some l /\ In pb l.

Lemma add_instance_spec : forall arr b m p m', add_instance arr b m p = Ok m' ->
  exists sg, token_sigil arr p = Ok sg /\
    forall sg' pb, inst_of m' sg' pb <-> inst_of m sg' pb \/ (sg' = sg /\ pb = (p, b)).
Proof.
  intros arr b m p m' H. unfold add_instance in H. apply bind_ok in H as [sg [E H]]. injection H as <-.
  exists sg. split; auto. intros sg' pb. unfold inst_of. rewrite (dget_set _ str_eqb_ok).
  destruct (str_eqb sg sg') eqn:Q.
  - apply str_eqb_ok in Q. subst sg'. split.
    + intros [l [E1 E2]]. injection E1 as <-. apply in_app_or in E2 as [E2|[<-|[]]]; [left|right; auto].
      destruct (dget str_eqb sg m); [eauto|contradiction].
    + intros H. eexists. split; [reflexivity|]. apply in_or_app. destruct H as [[l [E1 E2]]|[_ ->]].
      * rewrite E1. left. assumption.
      * right. left. reflexivity.
  - split; [intros H; left; assumption|]. intros [H|[-> _]]; [assumption|]. rewrite str_eqb_refl in Q. discriminate.
Qed.

Theorem construct_instances_spec : forall arr sa bs m, construct_instances arr sa bs = Ok m ->
  forall sg p b, inst_of m sg (p, b) <->
    In b bs /\ exists ps, block_instances sa b = Ok ps /\ In p ps /\ token_sigil arr p = Ok sg.
Proof.
  intros arr sa bs m H. unfold construct_instances in H.
  apply (foldM_ok_inv _ (fun pre m => forall sg p b, inst_of m sg (p, b) <->
    In b pre /\ exists ps, block_instances sa b = Ok ps /\ In p ps /\ token_sigil arr p = Ok sg) _ _ _ H).
  - intros sg p b. split; [intros [l [E _]]; discriminate|intros [[] _]].
  - intros pre b m0 m1 Hb E IH. apply bind_ok in E as [ps [E1 E]].
    assert (G : forall sg p b', inst_of m1 sg (p, b') <-> inst_of m0 sg (p, b') \/ (b' = b /\ In p ps /\ token_sigil arr p = Ok sg)).
    { apply (foldM_ok_inv _ (fun pre m1 => forall sg p b', inst_of m1 sg (p, b') <-> inst_of m0 sg (p, b') \/ (b' = b /\ In p pre /\ token_sigil arr p = Ok sg)) _ _ _ E).
      - intros sg p b'. split; [auto|]. intros [H0|[_ [[] _]]]. assumption.
      - intros pre' q m2 m3 Hq E2 IH2 sg p b'. destruct (add_instance_spec _ _ _ _ _ E2) as [sg' [T A]].
        rewrite A, IH2. rewrite in_app_iff. simpl. split.
        + intros [[H0|[-> [H1 H2]]]|[-> H1]]; auto. injection H1 as -> ->. right. auto.
        + intros [H0|[-> [[H1|[->|[]]] H2]]]; auto. right. split; [congruence|reflexivity]. }
    intros sg p b'. rewrite G, IH, in_app_iff. simpl. split.
    + intros [[H0 H1]|[-> [H1 H2]]]; [auto|]. split; [auto|]. exists ps. auto.
    + intros [[H0|[<-|[]]] [ps' [H1 [H2 H3]]]].
      * left. split; auto. exists ps'. auto.
      * right. rewrite E1 in H1. injection H1 as <-. auto.
Qed.

(** Every token of the array has a siglum entry. *)
Lemma layout_sigil : forall c idx pos t, In t (layout idx pos c) ->
  exists sg, dget str_eqb k_sigil (tk_data t) = Some (JStr sg) /\ In sg (map w_sigil c).
Proof.
  induction c as [|w c IH]; intros idx pos t H; [contradiction|]. cbn [layout] in H.
  apply in_app_or in H as [H|H].
  - exists (w_sigil w). split; [|left; reflexivity]. clear IH.
    revert pos H. induction (w_toks w) as [|t0 ts IH]; intros pos H; [contradiction|]. destruct H as [<-|H]; [|eauto].
    simpl. rewrite !(dget_set _ str_eqb_ok). reflexivity.
  - apply in_app_or in H as [[<-|[]]|H].
    + exists (w_sigil w). split; [|left; reflexivity]. reflexivity.
    + destruct (IH _ _ _ H) as [sg [A B]]. exists sg. split; auto. right. assumption.
Qed.

Lemma In_removelast : forall {A} (l : list A) x, In x (removelast l) -> In x l.
Proof.
  induction l as [|a l IH]; intros x H; [contradiction|]. destruct l as [|b l]; [contradiction|].
  destruct H as [->|H]; [left; reflexivity|]. right. apply IH. assumption.
Qed.

Lemma stamp_sigil : forall sg ts pos t, In t (stamp sg pos ts) -> dget str_eqb k_sigil (tk_data t) = Some (JStr sg).
Proof.
  induction ts as [|a ts IH]; intros pos t H; [contradiction|]. destruct H as [<-|H]; [|eauto].
  simpl. rewrite !(dget_set _ str_eqb_ok). reflexivity.
Qed.

(** TokenIndex.prepare succeeds on every collation with at least one witness, distinct
    sigla and no empty witness. *)
Theorem prepare_total : forall c, c <> [] -> NoDup (map w_sigil c) -> Forall (fun w => w_toks w <> []) c ->
  exists ti, prepare c = Ok ti.
Proof.
  intros c NE ND FA. unfold prepare, prepare_array. rewrite prepare_loop_spec by auto. cbn [bind app map].
  assert (N : layout 0 0 c <> []) by (intro C; apply layout_nil in C; contradiction).
  assert (P : pop_last (layout 0 0 c) = Ok (removelast (layout 0 0 c))).
  { unfold pop_last. destruct (layout 0 0 c); [congruence|reflexivity]. }
  rewrite P. cbn [bind]. set (arr := removelast (layout 0 0 c)).
  assert (TS : forall p, p < length arr -> exists sg, token_sigil arr p = Ok sg).
  { intros p Hp. destruct (nth_error_lt_ex arr p Hp) as [t Ht]. unfold token_sigil, aget. rewrite Ht. cbn [bind].
    apply nth_error_In in Ht. apply In_removelast in Ht. destruct (layout_sigil _ _ _ _ Ht) as [sg [A _]].
    unfold dgetE. rewrite A. eexists. reflexivity. }
  assert (CI : forall sa bs, (forall b, In b bs -> exists ps, block_instances sa b = Ok ps /\ forall p, In p ps -> p < length arr) ->
    exists m, construct_instances arr sa bs = Ok m).
  { intros sa bs H. unfold construct_instances. generalize (@nil (str * list (nat * block))) at 1 as m0.
    induction bs as [|b bs IH]; intros m0; [eexists; reflexivity|]. simpl.
    destruct (H b (or_introl eq_refl)) as [ps [E1 E2]]. rewrite E1. cbn [bind].
    assert (G : exists m1, foldM (add_instance arr b) ps m0 = Ok m1).
    { clear E1. revert m0. induction ps as [|p ps IHp]; intros m0; [eexists; reflexivity|]. simpl. unfold add_instance at 1.
      destruct (TS p) as [sg Es]; [apply E2; left; reflexivity|]. rewrite Es. cbn [bind]. apply IHp.
      intros q Hq. apply E2. right. assumption. }
    destruct G as [m1 ->]. cbn [bind]. apply IH. intros b' Hb'. apply H. right. assumption. }
  destruct (Nat.eq_dec (length (map tk_str arr)) 1) as [L|L].
  - destruct (map tk_str arr) as [|t [|? ?]]; try discriminate. rewrite suffix_array_one. cbn [bind]. 
    eexists. reflexivity.
  - destruct (suffix_array_ok _ L) as [sa [E OK]]. rewrite E. cbn [bind].
    destruct (split_lcp_spec (sa_LCP sa)) as [bs [E1 _]]; [apply (LCPn_0 _ _ OK)|]. rewrite E1. cbn [bind].
    destruct (CI (sa_SA sa) bs) as [m Hm].
    + intros b Hb.
      pose (ti := {| ti_wits := []; ti_ranges := []; ti_array := arr; ti_sa := sa_SA sa; ti_lcp := sa_LCP sa;
                     ti_blocks := bs; ti_instances := [] |}).
      assert (OT : index_text_ok ti) by (right; split; [exact L|]; exists sa; repeat split; auto; apply OK).
      destruct (block_sound ti OT b Hb) as [ps [B1 [_ [_ [Lb [_ B2]]]]]]. exists ps. split; [exact B1|].
      intros p Hp. destruct (B2 p p Hp Hp) as [B3 _]. unfold text in B3. rewrite map_length in B3. simpl in B3. lia.
    + rewrite Hm. eexists. reflexivity.
Qed.
