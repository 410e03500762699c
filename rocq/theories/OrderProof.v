(** Proofs for C58: tokens are put in a normal form with sorted dictionaries; the pipeline commutes
    with that (ParamProof.v) and the two inputs have the same normal form. *)
From Verif Require Import Py Lib TokenModel SuffixModel IndexModel GraphModel AlignModel TableModel NearModel ExportModel CollateModel
  JsonModel JsonSpec GraphSpec AlignerProof OutputProof StageProof DrawProof JsonProof ParamSpec ParamProof OrderSpec.
From Coq Require Import QArith Permutation.
Open Scope list_scope.
Open Scope nat_scope.

(** ** Sorted dictionaries *)
Lemma dget_insert : forall {V} k (x : str * V) l, dget str_eqb k (insert_item x l) = if str_eqb k (fst x) then Some (snd x) else dget str_eqb k l.
Proof.
  intros V k [k' v] l. cbn [fst snd]. induction l as [|[k2 v2] l IH]; cbn [insert_item fst]; [reflexivity|].
  destruct (str_ltb k2 k') eqn:L; [|reflexivity]. cbn [dget]. rewrite IH. destruct (str_eqb k k2) eqn:E2; [|reflexivity].
  destruct (str_eqb k k') eqn:E1; [|reflexivity]. apply str_eqb_ok in E1, E2. subst. rewrite str_ltb_irrefl in L. discriminate.
Qed.
Lemma dget_sort : forall {V} k (l : list (str * V)), dget str_eqb k (sort_items l) = dget str_eqb k l.
Proof.
  intros V k l. induction l as [|[k' v] l IH]; [reflexivity|]. unfold sort_items in *. cbn [fold_right]. rewrite dget_insert, IH. reflexivity.
Qed.

Fixpoint wsorted {V} (l : list (str * V)) : Prop :=
  match l with
  | x :: l' => match l' with y :: _ => str_ltb (fst y) (fst x) = false | [] => True end /\ wsorted l'
  | [] => True
  end.
Lemma insert_wsorted : forall {V} (x : str * V) l, wsorted l -> wsorted (insert_item x l).
Proof.
  intros V x l. induction l as [|y l IH]; intros H; [cbn; auto|]. cbn [insert_item]. destruct (str_ltb (fst y) (fst x)) eqn:L.
  - destruct H as [H1 H2]. cbn [wsorted]. split; [|auto]. destruct l as [|z l]; cbn [insert_item].
    + destruct (str_ltb (fst x) (fst y)) eqn:L2; [|reflexivity]. pose proof (str_ltb_trans _ _ _ L L2) as C. rewrite str_ltb_irrefl in C. discriminate.
    + destruct (str_ltb (fst z) (fst x)); [exact H1|].
      destruct (str_ltb (fst x) (fst y)) eqn:L2; [|reflexivity]. pose proof (str_ltb_trans _ _ _ L L2) as C. rewrite str_ltb_irrefl in C. discriminate.
  - cbn [wsorted]. split; assumption.
Qed.
Lemma sort_wsorted : forall {V} (l : list (str * V)), wsorted (sort_items l).
Proof. intros V l. induction l as [|x l IH]; [exact I|]. unfold sort_items in *. cbn [fold_right]. apply insert_wsorted. exact IH. Qed.
Lemma wsorted_sort : forall {V} (l : list (str * V)), wsorted l -> sort_items l = l.
Proof.
  intros V l. induction l as [|x l IH]; intros H; [reflexivity|]. destruct H as [H1 H2]. unfold sort_items in *. cbn [fold_right]. rewrite (IH H2).
  destruct l as [|y l]; [reflexivity|]. cbn [insert_item]. rewrite H1. reflexivity.
Qed.
Lemma sort_idem : forall {V} (l : list (str * V)), sort_items (sort_items l) = sort_items l.
Proof. intros. apply wsorted_sort, sort_wsorted. Qed.

Definition canon_d (d : jdict) : jdict := sort_items (map (fun m => (fst m, canon (snd m))) d).
Lemma canon_obj : forall d, canon (JObj d) = JObj (canon_d d).
Proof. reflexivity. Qed.
Lemma canon_idem : forall v, canon (canon v) = canon v.
Proof.
  apply jval_induction; try reflexivity.
  - intros l H. cbn [canon]. f_equal. rewrite map_map. apply map_ext_in. exact H.
  - intros d H. cbn [canon]. f_equal. rewrite !sort_map, sort_idem. rewrite map_map. cbn [fst snd]. apply map_ext_in. intros [k v] Hv. cbn [fst snd].
    f_equal. apply (H k v). apply (proj1 (sort_items_In (k, v) d)). assumption.
Qed.
Lemma canon_d_idem : forall d, canon_d (canon_d d) = canon_d d.
Proof. intros d. pose proof (canon_idem (JObj d)) as H. rewrite !canon_obj in H. injection H as H. exact H. Qed.
Lemma dget_canon : forall k d, dget str_eqb k (canon_d d) = option_map canon (dget str_eqb k d).
Proof. intros. unfold canon_d. rewrite dget_sort. apply (dget_dv str_eqb canon). Qed.

(** json.dumps sorts the keys itself. *)
Lemma canon_written : forall v, same_written (canon v) v.
Proof.
  unfold same_written. apply (jval_induction (fun v => forall i l, json_dumps i l (canon v) = json_dumps i l v)); try reflexivity.
  - intros a H i l. cbn [canon]. destruct a as [|x a]; [reflexivity|]. cbn [map]. rewrite !dumps_arr. cbn [map]. rewrite map_map.
    rewrite (H x) by (left; reflexivity). rewrite (map_ext_in _ (json_dumps i (S l)) a) by (intros; apply H; right; assumption). reflexivity.
  - intros d H i l. destruct d as [|m d]; [reflexivity|]. rewrite canon_obj. destruct (canon_d (m :: d)) as [|m' d'] eqn:E.
    + exfalso. unfold canon_d in E. apply (sort_nonempty _ _ E).
    + rewrite !dumps_obj, <- E. unfold canon_d. rewrite sort_idem, sort_map, map_map. do 3 f_equal. f_equal. apply map_ext_in.
      intros [k v] Hv. unfold member. cbn [fst snd]. do 2 f_equal. apply (H k v). apply (proj1 (sort_items_In (k, v) (m :: d))). assumption.
Qed.
Lemma canon_eq_written : forall v v', canon v = canon v' -> same_written v v'.
Proof. intros v v' E i l. rewrite <- (canon_written v), <- (canon_written v'), E. reflexivity. Qed.

(** ** Equal values have equal canonical forms *)
Lemma same_value_canon : forall v v', same_value v v' -> proper v -> canon v = canon v'.
Proof.
  apply (jval_induction (fun v => forall v', same_value v v' -> proper v -> canon v = canon v')).
  1-4: intros; match goal with H : same_value _ _ |- _ => inversion H; reflexivity end.
  - intros l IH v' H P. inversion H as [| | | |? l' F|]; subst. inversion P as [| | | |? FP|]; subst. cbn [canon]. f_equal. clear H P.
    induction F as [|x y l l' HXY F IHF]; [reflexivity|]. inversion FP; subst. cbn [map]. f_equal.
    + apply IH; auto. left. reflexivity.
    + apply IHF; auto. intros. apply IH; auto. right. assumption.
  - intros d IH v' H P. inversion H as [| | | | |? e d' PE F]; subst. inversion P as [| | | | |? ND FP]; subst. cbn [canon]. f_equal.
    transitivity (sort_items (map (fun m => (fst m, canon (snd m))) e)).
    + apply sort_items_unique; [|apply Permutation_map; assumption]. rewrite map_map. cbn [fst]. assumption.
    + f_equal. assert (IHe : forall k v, In (k, v) e -> forall v', same_value v v' -> canon v = canon v').
      { intros k v Hv v' HS. apply (Permutation_in _ (Permutation_sym PE)) in Hv. apply (IH k v Hv); [assumption|].
        rewrite Forall_forall in FP. apply (FP (k, v) Hv). }
      clear PE H P. induction F as [|[k v] [k' v'] e d' [E HV] F IHF]; [reflexivity|]. cbn [map fst snd] in *. subst k'. f_equal.
      * f_equal. apply (IHe k); [left; reflexivity|assumption].
      * apply IHF. intros. apply (IHe k0); [right|]; assumption.
Qed.
Lemma same_value_proper : forall v v', same_value v v' -> proper v -> proper v'.
Proof.
  apply (jval_induction (fun v => forall v', same_value v v' -> proper v -> proper v')).
  1-4: intros; match goal with H : same_value _ _ |- _ => inversion H; subst; assumption end.
  - intros l IH v' H P. inversion H as [| | | |? l' F|]; subst. inversion P as [| | | |? FP|]; subst. constructor. clear H P.
    induction F as [|x y l l' HXY F IHF]; [constructor|]. inversion FP; subst. constructor.
    + apply (IH x); auto. left. reflexivity.
    + apply IHF; auto. intros. apply (IH v); auto. right. assumption.
  - intros d IH v' H P. inversion H as [| | | | |? e d' PE F]; subst. inversion P as [| | | | |? ND FP]; subst.
    assert (NE : NoDup (map fst e)) by (apply (Permutation_NoDup (Permutation_map fst PE)); assumption).
    assert (EK : map fst e = map fst d') by (clear -F; induction F as [|x y e d' [E _] F IHF]; cbn [map]; congruence).
    constructor; [rewrite <- EK; assumption|].
    assert (IHe : forall m, In m e -> forall v', same_value (snd m) v' -> proper v').
    { intros [k v] Hv v' HS. apply (Permutation_in _ (Permutation_sym PE)) in Hv. apply (IH k v Hv); [assumption|].
      rewrite Forall_forall in FP. apply (FP (k, v) Hv). }
    clear -F IHe. induction F as [|x y e d' [E HV] F IHF]; constructor.
    + apply (IHe x); [left; reflexivity|assumption].
    + apply IHF. intros. apply (IHe m); [right|]; assumption.
Qed.

(** Entries of equal dictionaries. *)
Definition same_entry (a b : option jval) : Prop :=
  match a, b with Some v, Some v' => same_value v v' /\ proper v | None, None => True | _, _ => False end.
Lemma same_get : forall d d' k, same_value (JObj d) (JObj d') -> proper (JObj d) -> same_entry (dget str_eqb k d) (dget str_eqb k d').
Proof.
  intros d d' k H P. inversion H as [| | | | |? e ? PE F]; subst. inversion P as [| | | | |? ND FP]; subst.
  assert (ED : dget str_eqb k d = dget str_eqb k e).
  { destruct (dget str_eqb k d) as [v|] eqn:D.
    - apply (dget_In _ str_eqb_ok) in D. symmetry. apply (In_dget _ str_eqb_ok); [apply (Permutation_NoDup (Permutation_map fst PE)); assumption|]. apply (Permutation_in _ PE D).
    - destruct (dget str_eqb k e) as [v|] eqn:D2; [|reflexivity]. apply (dget_In _ str_eqb_ok) in D2. apply (Permutation_in _ (Permutation_sym PE)) in D2.
      apply (In_dget _ str_eqb_ok _ _ _ ND) in D2. congruence. }
  rewrite ED. assert (FPe : Forall (fun m => proper (snd m)) e) by (apply (Permutation_Forall PE); assumption).
  clear -F FPe. induction F as [|[k1 v1] [k2 v2] e d' [E HV] F IHF]; [exact I|]. cbn [fst snd] in *. subst k2. inversion FPe; subst. cbn [dget].
  destruct (str_eqb k k1); [|auto]. cbn. auto.
Qed.

(** ** Dictionaries with equal canonical entries *)
Record deq (d d' : jdict) : Prop := {
  dq_n : NoDup (map fst d); dq_n' : NoDup (map fst d');
  dq_get : forall k, option_map canon (dget str_eqb k d) = option_map canon (dget str_eqb k d') }.
Lemma deq_of : forall d d', same_value (JObj d) (JObj d') -> proper (JObj d) -> deq d d'.
Proof.
  intros d d' H P. pose proof (same_value_proper _ _ H P) as P'. inversion P; subst. inversion P'; subst. constructor; try assumption.
  intros k. pose proof (same_get d d' k H P) as S. destruct (dget str_eqb k d), (dget str_eqb k d'); cbn in *; try contradiction; [|reflexivity].
  f_equal. apply same_value_canon; tauto.
Qed.
Lemma deq_canon : forall d d', deq d d' -> canon_d d = canon_d d'.
Proof.
  intros d d' [N N' G]. unfold canon_d.
  assert (K : forall x : jdict, map fst (map (fun m => (fst m, canon (snd m))) x) = map fst x) by (intros; rewrite map_map; reflexivity).
  apply sort_items_unique; [rewrite K; assumption|].
  apply NoDup_Permutation.
  - apply (NoDup_map_inv fst). rewrite K. assumption.
  - apply (NoDup_map_inv fst). rewrite K. assumption.
  - assert (I : forall x : jdict, NoDup (map fst x) -> forall k v, In (k, v) (map (fun m => (fst m, canon (snd m))) x) <-> option_map canon (dget str_eqb k x) = Some v).
    { intros x NX k v. rewrite <- (dget_dv str_eqb canon). split.
      - intros HI. apply (In_dget _ str_eqb_ok); [unfold dv; rewrite K; assumption|assumption].
      - intros HD. apply (dget_In _ str_eqb_ok) in HD. assumption. }
    intros [k v]. rewrite (I d N), (I d' N'), G. tauto.
Qed.
Lemma deq_dset : forall d d' k v, deq d d' -> deq (dset str_eqb k v d) (dset str_eqb k v d').
Proof.
  intros d d' k v [N N' G]. constructor.
  - apply (dset_NoDup _ str_eqb_ok); assumption.
  - apply (dset_NoDup _ str_eqb_ok); assumption.
  - intros k'. destruct (str_eqb k' k) eqn:E.
    + apply str_eqb_ok in E. subst k'. rewrite !(dget_set_same _ str_eqb_ok). reflexivity.
    + assert (NE : k' <> k) by (intros ->; rewrite (proj2 (str_eqb_ok k k) eq_refl) in E; discriminate).
      rewrite (dget_set_other _ str_eqb_ok _ _ _ d) by auto. rewrite (dget_set_other _ str_eqb_ok _ _ _ d') by auto. apply G.
Qed.
Lemma jset_In : forall k v (d : jdict) k' v', In (k', v') (dset str_eqb k v d) -> (k' = k /\ v' = v) \/ In (k', v') d.
Proof.
  induction d as [|[k1 v1] d IH]; cbn [dset]; intros k' v' H.
  - destruct H as [H|[]]. injection H as <- <-. auto.
  - destruct (str_eqb k k1) eqn:E; (destruct H as [H|H]; [injection H as <- <-|]).
    + left. apply str_eqb_ok in E. auto.
    + right. right. assumption.
    + right. left. reflexivity.
    + apply IH in H as [H|H]; [auto|right; right; assumption].
Qed.
Lemma proper_dset : forall d k v, proper (JObj d) -> proper v -> proper (JObj (dset str_eqb k v d)).
Proof.
  intros d k v P PV. inversion P as [| | | | |? ND FP]; subst. constructor; [apply (dset_NoDup _ str_eqb_ok); assumption|].
  rewrite Forall_forall in *. intros [k' v'] H. cbn [snd]. apply jset_In in H as [[-> ->]|H]; [assumption|apply (FP _ H)].
Qed.
Lemma stamp_proper : forall sg pos d, proper (JObj d) -> proper (JObj (stamp_data sg pos d)).
Proof. intros. apply proper_dset; [apply proper_dset; [assumption|constructor]|constructor]. Qed.

(** Deleting an entry. *)
Lemma ddel_filter : forall k (d : jdict), NoDup (map fst d) -> ddel str_eqb k d = filter (fun m => negb (str_eqb k (fst m))) d.
Proof.
  intros k d. induction d as [|[k' v] d IH]; intros N; [reflexivity|]. cbn [map fst] in N. inversion N as [|? ? N1 N2]; subst. cbn [ddel filter fst].
  destruct (str_eqb k k') eqn:E; cbn [negb].
  - apply str_eqb_ok in E. subst k'. clear -N1. induction d as [|[k2 v2] d IH]; [reflexivity|]. cbn [filter fst]. cbn [map fst In] in N1.
    destruct (str_eqb k k2) eqn:E2; [apply str_eqb_ok in E2; subst; tauto|]. cbn [negb]. f_equal. apply IH. tauto.
  - f_equal. auto.
Qed.
Lemma perm_filter : forall {A} (f : A -> bool) l l', Permutation l l' -> Permutation (filter f l) (filter f l').
Proof.
  intros A f l l' P. induction P; cbn [filter]; [constructor| | |eapply Permutation_trans; eassumption].
  - destruct (f x); [constructor|]; assumption.
  - destruct (f x), (f y); try reflexivity. apply perm_swap.
Qed.
Lemma same_value_ddel : forall d d' k, same_value (JObj d) (JObj d') -> proper (JObj d) -> same_value (JObj (ddel str_eqb k d)) (JObj (ddel str_eqb k d')).
Proof.
  intros d d' k H P. pose proof (same_value_proper _ _ H P) as P'. inversion H as [| | | | |? e ? PE F]; subst.
  inversion P as [| | | | |? ND _]; subst. inversion P' as [| | | | |? ND' _]; subst. rewrite !ddel_filter by assumption.
  apply sj_obj with (e := filter (fun m => negb (str_eqb k (fst m))) e); [apply perm_filter; assumption|].
  clear -F. induction F as [|x y e d' [E HV] F IHF]; cbn [filter]; [constructor|]. rewrite E. destruct (negb (str_eqb k (fst y))); [constructor; auto|assumption].
Qed.
Lemma proper_ddel : forall d k, proper (JObj d) -> proper (JObj (ddel str_eqb k d)).
Proof.
  intros d k P. inversion P as [| | | | |? ND FP]; subst. rewrite ddel_filter by assumption. constructor.
  - clear -ND. induction d as [|x d IH]; [constructor|]. inversion ND as [|? ? N1 N2]; subst. cbn [filter]. destruct (negb (str_eqb k (fst x))); [|auto]. cbn [map].
    constructor; [|auto]. intros C. apply N1. apply in_map_iff in C as [y [EY HY]]. apply filter_In in HY as [HY _]. rewrite <- EY. apply in_map. assumption.
  - rewrite Forall_forall in *. intros m Hm. apply filter_In in Hm as [Hm _]. auto.
Qed.

(** ** Tokens with sorted dictionaries *)
Definition sorted_token (t : token) : token := {| tk_pos := tk_pos t; tk_str := tk_str t; tk_data := canon_d (tk_data t) |}.
Notation NT := sorted_token.

Definition plausible (t : token) : Prop :=
  (exists e, filtered_token_data t = Raise e) \/ (exists d, filtered_token_data t = Ok d /\ proper (JObj (tk_data t))).
Lemma sorted_raises : forall t e, filtered_token_data t = Raise e -> filtered_token_data (NT t) = Raise e.
Proof.
  intros t e H. unfold filtered_token_data, dgetE in *. cbn [sorted_token tk_data]. rewrite dget_canon.
  destruct (dget str_eqb k_sigil (tk_data t)) as [v|] eqn:E1; cbn [option_map bind] in *; [|assumption].
  assert (O : forall d : jdict, dget str_eqb k_pos (ddel str_eqb k_sigil d) = dget str_eqb k_pos d).
  { induction d as [|[k' v'] d IH]; [reflexivity|]. cbn [ddel]. destruct (str_eqb k_sigil k') eqn:E; cbn [dget].
    - apply str_eqb_ok in E. subst k'. reflexivity.
    - rewrite IH. reflexivity. }
  rewrite O in *. rewrite dget_canon. destruct (dget str_eqb k_pos (tk_data t)); cbn [option_map bind] in *; [discriminate|assumption].
Qed.
Lemma sorted_answers : forall t d, filtered_token_data t = Ok d -> proper (JObj (tk_data t)) ->
  exists d', filtered_token_data (NT t) = Ok d' /\ same_value (JObj d) (JObj d') /\ proper (JObj d).
Proof.
  intros t d H P. unfold filtered_token_data, dgetE in *. cbn [sorted_token tk_data]. rewrite dget_canon.
  destruct (dget str_eqb k_sigil (tk_data t)) as [v|] eqn:E1; cbn [option_map bind] in *; [|discriminate].
  assert (O : forall d : jdict, dget str_eqb k_pos (ddel str_eqb k_sigil d) = dget str_eqb k_pos d).
  { induction d0 as [|[k' v'] d0 IH]; [reflexivity|]. cbn [ddel]. destruct (str_eqb k_sigil k') eqn:E; cbn [dget].
    - apply str_eqb_ok in E. subst k'. reflexivity.
    - rewrite IH. reflexivity. }
  rewrite O in *. rewrite dget_canon. destruct (dget str_eqb k_pos (tk_data t)); cbn [option_map bind] in *; [|discriminate].
  injection H as <-. eexists. split; [reflexivity|]. split.
  - apply same_value_ddel; [|apply proper_ddel; assumption]. apply same_value_ddel; [|assumption]. apply (canon_same (JObj (tk_data t))).
  - apply proper_ddel, proper_ddel. assumption.
Qed.
Lemma sorted_asked : forall filt f a b, order_blind filt -> filt = Some f -> plausible a -> plausible b -> asked f (NT a) (NT b) = asked f a b.
Proof.
  intros filt f a b OB Ef Pa Pb. unfold asked. destruct Pa as [[e Ea]|[d [Ea PA]]].
  - rewrite (sorted_raises _ _ Ea), Ea. reflexivity.
  - destruct (sorted_answers _ _ Ea PA) as [d' [Ea' [SA PD]]]. rewrite Ea', Ea. cbn [bind]. destruct Pb as [[e Eb]|[d2 [Eb PB]]].
    + rewrite (sorted_raises _ _ Eb), Eb. reflexivity.
    + destruct (sorted_answers _ _ Eb PB) as [d2' [Eb' [SB PD2]]]. rewrite Eb', Eb. cbn [bind]. f_equal. symmetry. apply (OB f Ef); assumption.
Qed.

(** ** Collations whose tokens have the same entries *)
Definition same_entries (c c' : collation) : Prop :=
  Forall2 (fun w w' => w_sigil w' = w_sigil w /\
    Forall2 (fun t t' => t0_str t' = t0_str t /\ same_value (JObj (t0_data t)) (JObj (t0_data t')) /\ proper (JObj (t0_data t))) (w_toks w) (w_toks w')) c c'.
Lemma entries_texts : forall c c', same_entries c c' -> same_texts c c'.
Proof.
  intros c c' H. induction H as [|w w' c c' [E F] H IH]; constructor; [|assumption]. split; [assumption|].
  clear -F. induction F as [|t t' l l' [E _] F IH]; cbn [map]; congruence.
Qed.
Lemma entries_pairs : forall c c', same_entries c c' -> forall a a', In (a, a') (counterparts c c') ->
  same_value (JObj (t0_data a)) (JObj (t0_data a')) /\ proper (JObj (t0_data a)).
Proof.
  intros c c' H. unfold counterparts. assert (G : Forall2 (fun t t' => same_value (JObj (t0_data t)) (JObj (t0_data t')) /\ proper (JObj (t0_data t))) (flat_map w_toks c) (flat_map w_toks c')).
  { induction H as [|w w' c c' [E F] H IH]; cbn [flat_map]; [constructor|]. apply Forall2_app; [|assumption].
    clear -F. induction F as [|t t' l l' [_ E] F IH]; constructor; assumption. }
  clear H. induction G as [|x y l l' HXY G IH]; intros a a' HI; [contradiction|]. cbn [combine In] in HI. destruct HI as [HI|HI]; [injection HI as <- <-; assumption|auto].
Qed.

Section Collate.
  Variables (cc : cclass) (topo : graph -> res (list vid)) (ratio : str -> str -> Q).
  Hypothesis TS : structural topo.

  Lemma fit_sorted : forall D c c' t, same_entries c c' -> fit D (counterparts c c') t -> NT (mtD D t) = NT t /\ plausible t /\ plausible (mtD D t).
  Proof.
    intros D c c' t SE [[E [e F]]|[sg [a [a' [HI [E1 E2]]]]]].
    - split; [rewrite E; reflexivity|]. rewrite E. split; left; eauto.
    - destruct (entries_pairs _ _ SE _ _ HI) as [SV P]. pose proof (same_value_proper _ _ SV P) as P'. split.
      + unfold sorted_token. rewrite mtD_pos, mtD_str, E1, E2. f_equal. symmetry. apply deq_canon. apply deq_dset, deq_dset, deq_of; assumption.
      + split; right; eexists.
        * split; [apply (filtered_stamped _ _ _ _ E1)|]. rewrite E1. apply stamp_proper. assumption.
        * split; [apply (filtered_stamped _ _ _ _ E2)|]. rewrite E2. apply stamp_proper. assumption.
  Qed.

  Theorem graph_order : forall c c' o, same_entries c c' -> order_blind (o_filter o) ->
    (y <- collate_graph cc topo ratio c o ;; Ok (grmap NT y)) = (y <- collate_graph cc topo ratio c' o ;; Ok (grmap NT y)).
  Proof.
    intros c c' o SE OB. destruct (prepare_map c c' (entries_texts _ _ SE)) as [E F]. set (D := map tk_data (IndexProof.layout 0 0 c')) in *.
    rewrite !collate_graph_finish. destruct (o_astar o); [reflexivity|]. rewrite E.
    destruct (prepare c) as [ti|e]; cbn [bind]; [|reflexivity]. destruct (F ti eq_refl) as [F1 F2]. rewrite Forall_forall in F1.
    transitivity (finish cc topo ratio (timap NT ti) o).
    - symmetry. apply finish_map; [assumption|reflexivity|reflexivity|]. intros f Ef a b Ha Hb. apply (sorted_asked (o_filter o)); auto; eapply fit_sorted; eauto.
    - transitivity (finish cc topo ratio (timap NT (timap (mtD D) ti)) o).
      + f_equal. unfold timap. cbn [ti_array ti_wits ti_sa ti_blocks ti_instances]. f_equal.
        * rewrite map_map. apply map_ext_in. intros w Hw. unfold iwmap. cbn [iw_sigil iw_toks]. f_equal. rewrite map_map. apply map_ext_in. intros t Ht.
          rewrite Forall_forall in F2. specialize (F2 w Hw). rewrite Forall_forall in F2. symmetry. eapply fit_sorted; eauto.
        * rewrite map_map. apply map_ext_in. intros t Ht. symmetry. eapply fit_sorted; eauto.
      + apply finish_map; [assumption|reflexivity|reflexivity|]. intros f Ef a b Ha Hb. cbn [timap ti_array] in Ha, Hb.
        apply in_map_iff in Ha as [a0 [<- Ha]]. apply in_map_iff in Hb as [b0 [<- Hb]]. apply (sorted_asked (o_filter o)); auto; eapply fit_sorted; eauto.
  Qed.
End Collate.

(** ** What is shown of normalised tokens *)
Lemma map_eq_Forall2 : forall {A B} (f : A -> B) (R : A -> A -> Prop) l l', map f l = map f l' -> (forall x y, f x = f y -> R x y) -> Forall2 R l l'.
Proof.
  intros A B f R. induction l as [|x l IH]; intros [|y l'] E H; try discriminate; constructor; cbn [map] in E; injection E as E1 E2; auto.
Qed.
Lemma NT_data : forall a b, NT a = NT b -> same_data a b.
Proof. intros a b E. injection E as E1 E2 E3. split; [assumption|]. split; [assumption|]. apply canon_eq_written. rewrite !canon_obj, E3. reflexivity. Qed.
Lemma NT_cells : forall l l' : list (str * list token), dv (map NT) l = dv (map NT) l' -> Forall2 (fun e e' => fst e = fst e' /\ Forall2 same_data (snd e) (snd e')) l l'.
Proof.
  intros l l' E. apply (map_eq_Forall2 _ _ _ _ E). intros [k x] [k' y] EX. cbn [fst snd] in *. injection EX as E1 E2. split; [assumption|].
  apply (map_eq_Forall2 _ _ _ _ E2). apply NT_data.
Qed.
Lemma NT_table : forall t t', tmap NT t = tmap NT t' -> same_table t t'.
Proof.
  intros t t' E. unfold tmap in E. injection E as E1 E2. split.
  - apply (map_eq_Forall2 _ _ _ _ E1). intros x y EX. unfold colmap in EX. injection EX as EX EV. split; [assumption|]. apply NT_cells. assumption.
  - apply (map_eq_Forall2 _ _ _ _ E2). intros x y EX. unfold rowmap in EX. injection EX as EH EX. split; [assumption|].
    apply (map_eq_Forall2 _ _ _ _ EX). intros [l|] [l'|] EL; try discriminate; [|exact I]. cbn in EL. injection EL as EL. cbn.
    apply (map_eq_Forall2 _ _ _ _ EL). apply NT_data.
Qed.
Lemma NT_graph : forall g g', gmap NT g = gmap NT g' -> same_graph g g'.
Proof.
  intros g g' E. unfold gmap in E. injection E as E1 E2 E3 E4. split; [assumption|]. split; [assumption|].
  unfold dv in E1. apply (map_eq_Forall2 _ _ _ _ E1). intros [v x] [v' y] EX. cbn [fst snd] in *. unfold vmap in EX. injection EX as EV EL ET.
  split; [assumption|]. split; [assumption|]. apply NT_cells. assumption.
Qed.

(** JSON *)
Lemma cell_canon : forall c, canon (cell_json (option_map (map NT) c)) = canon (cell_json c).
Proof.
  intros [[|x ts]|]; [reflexivity| |reflexivity]. cbn [option_map map cell_json]. cbn [canon]. f_equal. cbn [map]. f_equal.
  - rewrite !canon_obj. cbn [sorted_token tk_data]. rewrite canon_d_idem. reflexivity.
  - rewrite !map_map. apply map_ext. intros t. rewrite !canon_obj. cbn [sorted_token tk_data]. rewrite canon_d_idem. reflexivity.
Qed.
Lemma export_canon : forall st t, canon (export_json st (tmap NT t)) = canon (export_json st t).
Proof.
  intros st t. unfold export_json. rewrite !canon_obj. f_equal. unfold canon_d. f_equal. rewrite !map_app. f_equal.
  - cbn [map fst snd canon]. cbn [tmap t_rows]. f_equal; [|f_equal].
    + f_equal. f_equal. rewrite !map_map. apply map_ext. intros r. cbn [rowmap r_cells canon]. f_equal. rewrite !map_map. apply map_ext. apply cell_canon.
    + f_equal. f_equal. rewrite !map_map. reflexivity.
  - destruct st; [|reflexivity]. cbn [map fst snd canon tmap t_columns]. do 3 f_equal. rewrite !map_map. reflexivity.
Qed.
Lemma vertical_canon : forall t w, canon (export_vertical_json (tmap NT t) w) = canon (export_vertical_json t w).
Proof.
  intros t w. unfold export_vertical_json. rewrite !canon_obj. f_equal. unfold canon_d. f_equal. cbn [map fst snd canon]. cbn [tmap t_columns]. f_equal; [|f_equal].
  - f_equal. f_equal. rewrite !map_map. apply map_ext. intros c. cbn [canon]. f_equal. rewrite !map_map. apply map_ext. intros s. cbn [colmap c_cells].
    rewrite (dget_dv str_eqb (map NT)). apply cell_canon.
  - f_equal. f_equal. f_equal. f_equal. generalize (@nil str). induction (t_columns t) as [|c l IH]; intros acc; [reflexivity|]. cbn [map fold_left]. apply IH.
Qed.

(** Texts *)
Lemma mapM_map' : forall {A B C} (f : B -> res C) (g : A -> B) l, mapM f (map g l) = mapM (fun x => f (g x)) l.
Proof. intros A B C f g. induction l as [|x l IH]; [reflexivity|]. cbn [map mapM]. rewrite IH. reflexivity. Qed.
Lemma mapM_ext' : forall {A B} (f g : A -> res B) l, (forall x, f x = g x) -> mapM f l = mapM g l.
Proof. intros A B f g l H. induction l as [|x l IH]; [reflexivity|]. cbn [mapM]. rewrite H, IH. reflexivity. Qed.
Lemma token_t_NT : forall t, token_t (NT t) = token_t t.
Proof.
  intros t. unfold token_t, dgetE. cbn [sorted_token tk_data]. rewrite dget_canon. destruct (dget str_eqb (lit "t") (tk_data t)) as [v|]; [|reflexivity].
  cbn [option_map bind]. destruct v; reflexivity.
Qed.
Lemma cell_text_NT : forall ts, cell_text (map NT ts) = cell_text ts.
Proof. intros. unfold cell_text. rewrite mapM_map'. rewrite (mapM_ext' _ token_t) by apply token_t_NT. reflexivity. Qed.
Lemma csv_NT : forall tsv t, export_csv tsv (tmap NT t) = export_csv tsv t.
Proof.
  intros. unfold export_csv. cbn [tmap t_rows]. rewrite mapM_map'. f_equal. apply mapM_ext'. intros r. unfold row_strings. cbn [rowmap r_cells r_header]. rewrite mapM_map'.
  f_equal. apply mapM_ext'. intros [[|x ts]|]; [reflexivity| |reflexivity]. cbn [option_map map cell_string]. change (NT x :: map NT ts) with (map NT (x :: ts)). rewrite cell_text_NT. reflexivity.
Qed.
Lemma readings_NT : forall c, column_readings (colmap NT c) = column_readings c.
Proof.
  intros c. unfold column_readings. cbn [colmap c_cells]. unfold dv. rewrite sort_map, mapM_map'. apply mapM_ext'. intros [sg ts]. cbn [fst snd]. rewrite cell_text_NT. reflexivity.
Qed.
Lemma xml_NT : forall t, export_xml (tmap NT t) = export_xml t.
Proof. intros. unfold export_xml. cbn [tmap t_columns]. rewrite mapM_map'. rewrite (mapM_ext' _ column_readings) by apply readings_NT. reflexivity. Qed.
Lemma tei_NT : forall cc i t, export_tei cc i (tmap NT t) = export_tei cc i t.
Proof.
  intros. unfold export_tei, tei_items. cbn [tmap t_columns t_rows]. rewrite map_length, mapM_map'.
  rewrite (mapM_ext' _ (tei_column cc (length (t_rows t)))) by (intros; unfold tei_column; rewrite readings_NT; reflexivity). reflexivity.
Qed.

Section Output.
  Variables (cc : cclass) (topo : graph -> res (list vid)) (ratio : str -> str -> Q).
  Hypothesis TS : structural topo.

  Theorem collate_order : forall c c' o, same_entries c c' -> order_blind (o_filter o) ->
    same_result (collate cc topo ratio c o) (collate cc topo ratio c' o).
  Proof.
    intros c c' o SE OB. pose proof (graph_order cc topo ratio TS c c' o SE OB) as G. unfold collate.
    destruct (collate_graph cc topo ratio c o) as [[g rk]|e], (collate_graph cc topo ratio c' o) as [[g' rk']|e']; cbn [bind] in *; try discriminate; [|injection G as ->; reflexivity].
    apply ok_inj in G. unfold grmap in G. cbn [fst snd] in G. apply pair_equal_spec in G as [G ->].
    unfold render. rewrite (same_texts_sigla _ _ (entries_texts _ _ SE)).
    destruct (str_eqb (o_output o) (lit "svg")); [split; [reflexivity|apply NT_graph; assumption]|].
    destruct (str_eqb (o_output o) (lit "svg_simple")); [split; [reflexivity|apply NT_graph; assumption]|].
    destruct (str_eqb (o_output o) (lit "graph")); [apply NT_graph; assumption|].
    assert (T : (y <- construct_table (map w_sigil c) g rk' ;; Ok (tmap NT y)) = (y <- construct_table (map w_sigil c) g' rk' ;; Ok (tmap NT y))).
    { rewrite <- !construct_table_map, G. reflexivity. }
    destruct (construct_table (map w_sigil c) g rk') as [t|e], (construct_table (map w_sigil c) g' rk') as [t'|e']; cbn [bind] in *; try discriminate; [|injection T as ->; reflexivity].
    apply ok_inj in T.
    destruct (str_eqb (o_output o) (lit "json")).
    { destruct (o_vertical o); cbn; apply canon_eq_written; [rewrite <- (vertical_canon t), <- (vertical_canon t'), T|rewrite <- (export_canon false t), <- (export_canon false t'), T]; reflexivity. }
    destruct (str_eqb (o_output o) (lit "html")); [apply NT_table; assumption|].
    destruct (str_eqb (o_output o) (lit "html2")); [apply NT_table; assumption|].
    destruct (str_eqb (o_output o) (lit "table")); [apply NT_table; assumption|].
    destruct (str_eqb (o_output o) (lit "xml")).
    { rewrite <- (xml_NT t), <- (xml_NT t'), T. destruct (export_xml (tmap NT t')); reflexivity. }
    destruct (str_eqb (o_output o) (lit "tei")).
    { rewrite <- (tei_NT cc _ t), <- (tei_NT cc _ t'), T. destruct (export_tei cc (o_indent o) (tmap NT t')); reflexivity. }
    destruct (str_eqb (o_output o) (lit "csv")).
    { rewrite <- (csv_NT false t), <- (csv_NT false t'), T. destruct (export_csv false (tmap NT t')); reflexivity. }
    destruct (str_eqb (o_output o) (lit "tsv")).
    { rewrite <- (csv_NT true t), <- (csv_NT true t'), T. destruct (export_csv true (tmap NT t')); reflexivity. }
    reflexivity.
  Qed.

  (** ** Reading the input *)
  Definition rres {A} (R : A -> A -> Prop) (r r' : res A) : Prop := match r, r' with Ok x, Ok y => R x y | Raise e, Raise e' => e = e' | _, _ => False end.
  Lemma rres_mapM : forall {A B} (f : A -> res B) (P : A -> A -> Prop) (R : B -> B -> Prop), (forall x y, P x y -> rres R (f x) (f y)) ->
    forall l l', Forall2 P l l' -> rres (Forall2 R) (mapM f l) (mapM f l').
  Proof.
    intros A B f P R H l l' F. induction F as [|x y l l' HXY F IH]; [constructor|]. cbn [mapM]. specialize (H x y HXY).
    destruct (f x), (f y); cbn [rres bind] in *; try contradiction; [|assumption].
    destruct (mapM f l), (mapM f l'); cbn [rres bind] in *; try contradiction; [constructor; assumption|assumption].
  Qed.
  Lemma same_dict : forall v v', same_value v v' /\ proper v -> rres (fun d d' => same_value (JObj d) (JObj d') /\ proper (JObj d)) (as_dict v) (as_dict v').
  Proof. intros v v' [H P]. pose proof H as H'. inversion H'; subst; try reflexivity. cbn. auto. Qed.
  Definition dict_eq (d d' : jdict) : Prop := same_value (JObj d) (JObj d') /\ proper (JObj d).
  Lemma same_init : forall d d', dict_eq d d' ->
    rres (fun x x' => same_value (fst x) (fst x') /\ dict_eq (snd x) (snd x')) (token_init d) (token_init d').
  Proof.
    intros d d' [H P]. unfold token_init. pose proof (same_get d d' (lit "n") H P) as N. pose proof (same_get d d' (lit "t") H P) as T.
    destruct (dget str_eqb (lit "n") d), (dget str_eqb (lit "n") d'); cbn in N; try contradiction; [cbn; unfold dict_eq; tauto|].
    destruct (dget str_eqb (lit "t") d), (dget str_eqb (lit "t") d'); cbn in T; try contradiction; [cbn; unfold dict_eq; tauto|reflexivity].
  Qed.
  Definition tok_eq (t t' : tok0) : Prop := t0_str t' = t0_str t /\ same_value (JObj (t0_data t)) (JObj (t0_data t')) /\ proper (JObj (t0_data t)).
  Lemma same_tok : forall x x', same_value (fst x) (fst x') /\ dict_eq (snd x) (snd x') -> rres tok_eq (tok_str_of x) (tok_str_of x').
  Proof.
    intros [v d] [v' d'] [H [D P]]. cbn [fst snd] in *. unfold tok_str_of. cbn [fst snd]. inversion H; subst; try reflexivity. split; [reflexivity|]. split; assumption.
  Qed.
  Lemma tok_eq_refl : forall s, tok_eq (plain_token cc s) (plain_token cc s).
  Proof.
    intros s. assert (P : proper (JObj (t0_data (plain_token cc s)))).
    { constructor; [cbn; repeat constructor; cbn; intuition discriminate|repeat constructor]. }
    split; [reflexivity|]. split; [|assumption]. econstructor; [reflexivity|]. repeat constructor.
  Qed.
  Definition wit_eq (w w' : witness) : Prop := w_sigil w' = w_sigil w /\ Forall2 tok_eq (w_toks w) (w_toks w').
  Lemma same_witness : forall d d', dict_eq d d' -> rres wit_eq (witness_init cc d) (witness_init cc d').
  Proof.
    intros d d' [H P]. unfold witness_init. pose proof (same_get d d' (lit "id") H P) as I. pose proof (same_get d d' (lit "content") H P) as C.
    pose proof (same_get d d' (lit "tokens") H P) as T.
    destruct (dget str_eqb (lit "id") d) as [vi|], (dget str_eqb (lit "id") d') as [vi'|]; cbn in I; try contradiction; [|reflexivity].
    destruct I as [I _]. inversion I; subst; try reflexivity. clear I.
    destruct (dget str_eqb (lit "content") d) as [vc|], (dget str_eqb (lit "content") d') as [vc'|]; cbn in C; try contradiction.
    - destruct C as [C _]. inversion C; subst; try reflexivity. split; [reflexivity|]. cbn [w_toks].
      induction (tokenize cc s0); cbn [map]; constructor; [apply tok_eq_refl|assumption].
    - destruct (dget str_eqb (lit "tokens") d) as [vt|], (dget str_eqb (lit "tokens") d') as [vt'|]; cbn in T; try contradiction; [|split; [reflexivity|constructor]].
      destruct T as [T PT]. inversion T as [| | | |l l' F|]; subst; try reflexivity.
      assert (FD : Forall2 (fun v v' => same_value v v' /\ proper v) l l').
      { inversion PT as [| | | |? FP|]; subst. clear -F FP. induction F; inversion FP; subst; constructor; auto. }
      pose proof (rres_mapM as_dict _ _ same_dict l l' FD) as R1.
      destruct (mapM as_dict l) as [ds|], (mapM as_dict l') as [ds'|]; cbn [rres bind] in *; try contradiction; [|assumption].
      pose proof (rres_mapM token_init _ _ same_init ds ds' R1) as R2.
      destruct (mapM token_init ds) as [ts|], (mapM token_init ds') as [ts'|]; cbn [rres bind] in *; try contradiction; [|assumption].
      pose proof (rres_mapM tok_str_of _ _ same_tok ts ts' R2) as R3.
      destruct (mapM tok_str_of ts) as [us|], (mapM tok_str_of ts') as [us'|]; cbn [rres bind] in *; try contradiction; [|assumption].
      split; [reflexivity|assumption].
  Qed.
  Lemma py_prefix_F2 : forall {A} (R : A -> A -> Prop) l l' lim, Forall2 R l l' -> Forall2 R (py_prefix l lim) (py_prefix l' lim).
  Proof.
    intros A R l l' [k|] F; [|assumption]. cbn [py_prefix]. assert (EL : length l = length l') by (clear -F; induction F; cbn; congruence). rewrite EL.
    generalize (Z.to_nat (if Z.ltb k 0 then Z.of_nat (length l') + k else k)). clear EL k. induction F; intros [|n]; cbn [firstn]; constructor; auto.
  Qed.
  Theorem input_order : forall d d' lim, dict_eq d d' -> rres same_entries (create_from_dict cc d lim) (create_from_dict cc d' lim).
  Proof.
    intros d d' lim [H P]. unfold create_from_dict. pose proof (same_get d d' (lit "witnesses") H P) as W.
    destruct (dget str_eqb (lit "witnesses") d) as [v|], (dget str_eqb (lit "witnesses") d') as [v'|]; cbn in W; try contradiction; [|reflexivity].
    destruct W as [W PW]. inversion W as [| | | |l l' F|]; subst; try reflexivity.
    assert (FD : Forall2 (fun v v' => same_value v v' /\ proper v) l l').
    { inversion PW as [| | | |? FP|]; subst. clear -F FP. induction F; inversion FP; subst; constructor; auto. }
    apply (py_prefix_F2 _ _ _ lim) in FD. assert (B : same_entries collation_empty collation_empty) by constructor.
    revert B. generalize collation_empty at 2 4. generalize collation_empty. induction FD as [|x y l0 l0' HXY FD IH]; intros c c' B; cbn [foldM]; [assumption|].
    pose proof (same_dict _ _ HXY) as D. destruct (as_dict x) as [dx|], (as_dict y) as [dy|]; cbn [rres bind] in *; try contradiction; [|assumption].
    pose proof (same_witness dx dy D) as RW. unfold add_witness.
    destruct (witness_init cc dx) as [w|], (witness_init cc dy) as [w'|]; cbn [rres bind] in *; try contradiction; [|assumption].
    apply IH. apply Forall2_app; [assumption|]. constructor; [exact RW|constructor].
  Qed.

  Theorem collate_dict_order : forall d d' o, same_value (JObj d) (JObj d') -> proper (JObj d) -> order_blind (o_filter o) ->
    same_result (collate_dict cc topo ratio d o) (collate_dict cc topo ratio d' o).
  Proof.
    intros d d' o H P OB. unfold collate_dict. pose proof (input_order d d' None (conj H P)) as R.
    destruct (create_from_dict cc d None) as [c|], (create_from_dict cc d' None) as [c'|]; cbn [rres bind] in *; try contradiction; [|assumption].
    apply collate_order; assumption.
  Qed.
End Output.
