(** Property C102: RangeSets pickled by older versions. *)
From Verif Require Import Py TokenModel RangeSetModel RangeSpec RangeProof RangeOldModel RangeOldSpec.
From Coq Require Import Sorting.Sorted ZArith List Lia.
Import ListNotations.
Open Scope list_scope.
Open Scope Z_scope.

Lemma e9_is : e9 = 10 ^ 9. Proof. reflexivity. Qed.

Definition as_slice (r : old_range) : old_range := match r with Quad a b s p => Sliced a (b + 1) s p | Triple a b s p => Sliced a b s p | _ => r end.

Lemma as_slice_facts : forall r, is_sliced (as_slice r) /\ pad_of (as_slice r) = pad_of r /\ (sound_range (as_slice r) <-> sound_range r) /\ forall x, stands_for (as_slice r) x <-> stands_for r x.
Proof.
  intros [a b s p|a b s p|a b s p]; cbn [as_slice is_sliced pad_of]; (split; [exact I|]; split; [reflexivity|]; split; [|intros x]).
  - unfold sound_range. lia.
  - cbn [stands_for]. split; intros [n H]; exists n; lia.
  - reflexivity.
  - reflexivity.
  - reflexivity.
  - reflexivity.
Qed.

Lemma converted_ok : forall o l, ob_ranges o = Some l -> version_of o < 3 ->
  match converted o with Ok l' => (version_of o <= 1 -> Forall is_quad l) /\ (Forall is_sliced l' -> of_version (version_of o) l /\ l' = map as_slice l) | Raise _ => ~ of_version (version_of o) l end /\
  (of_version (version_of o) l -> converted o = Ok (map as_slice l)).
Proof.
  intros o l R V. unfold converted, of_version. rewrite R. destruct (version_of o <=? 1) eqn:E.
  - assert (G : forall l, match mapM (fun r => match r with Quad a b s p => Ok (Sliced a (b + 1) s p) | _ => Raise ValueError end) l with
                         | Ok l' => Forall is_quad l /\ l' = map as_slice l | Raise _ => ~ Forall is_quad l end).
    { clear. induction l as [|r l IH]; cbn [mapM]; [split; [constructor|reflexivity]|]. destruct r as [a b s p|a b s p|a b s p]; cbn [bind]; try (intros C; inversion C; contradiction).
      destruct (mapM _ l) as [l'|]; cbn [bind]; [destruct IH as [I1 ->]; split; [constructor; [exact I|assumption]|reflexivity]|]. intros C. inversion C; contradiction. }
    specialize (G l). split.
    + destruct (mapM _ l) as [l'|]; [|exact G]. destruct G as [G1 G2]. auto.
    + intros Q. destruct (mapM _ l) as [l'|]; [|contradiction]. destruct G as [_ ->]. reflexivity.
  - apply Z.leb_gt in E.
    assert (G : forall l, match mapM (fun r => match r with Triple a b s p => Ok (Sliced a b s p) | Sliced _ _ _ _ => Raise TypeError | Quad _ _ _ _ => Raise ValueError end) l with
                         | Ok l' => Forall is_triple l /\ l' = map as_slice l | Raise _ => ~ Forall is_triple l end).
    { clear. induction l as [|r l IH]; cbn [mapM]; [split; [constructor|reflexivity]|]. destruct r as [a b s p|a b s p|a b s p]; cbn [bind]; try (intros C; inversion C; contradiction).
      destruct (mapM _ l) as [l'|]; cbn [bind]; [destruct IH as [I1 ->]; split; [constructor; [exact I|assumption]|reflexivity]|]. intros C. inversion C; contradiction. }
    assert (SL : forall l, Forall is_sliced l -> map as_slice l = l).
    { clear. induction l as [|r l IH]; intros F; [reflexivity|]. inversion F as [|? ? F1 F2]; subst. cbn [map]. rewrite IH by assumption. destruct r; try contradiction. reflexivity. }
    destruct l as [|r l]; [split; [split; [lia|auto]|reflexivity]|]. destruct r as [a b s p|a b s p|a b s p].
    + specialize (G (Quad a b s p :: l)). split.
      * destruct (mapM _ _) as [l'|]; [destruct G as [G _]; inversion G; contradiction|]. intros [C|C]; inversion C; contradiction.
      * intros [C|C]; inversion C; contradiction.
    + split; [split; [lia|]; intros F; split; [auto|symmetry; apply SL; assumption]|]. intros [C|C]; [|inversion C; contradiction]. rewrite SL by assumption. reflexivity.
    + specialize (G (Triple a b s p :: l)). split.
      * destruct (mapM _ _) as [l'|]; [destruct G as [G1 G2]; split; [lia|auto]|]. intros [C|C]; [inversion C; contradiction|contradiction].
      * intros [C|C]; [inversion C; contradiction|]. destruct (mapM _ _) as [l'|]; [destruct G as [_ ->]; reflexivity|contradiction].
Qed.

(** An object with other elements and another padding. *)
Definition with_set (o : rs_obj) (e : list Z) (p : option (option Z)) : rs_obj :=
  {| ob_elems := e; ob_padding := p; ob_autostep := ob_autostep o; ob_version := ob_version o; ob_ranges := ob_ranges o; ob_length := ob_length o |}.
Definition pad_after (p : option (option Z)) (l : list old_range) : option (option Z) := match p with Some None => Some (first_padding l) | _ => p end.

Lemma add_old_spec : forall o r, is_sliced r -> ascending (ob_elems o) ->
  (sound_range r -> (ob_padding o = None -> pad_of r = 0) -> exists e, add_old o r = Ok (with_set o e (pad_after (ob_padding o) [r])) /\ ascending e /\ forall x, In x e <-> In x (ob_elems o) \/ stands_for r x) /\
  (sound_range r -> ob_padding o = None -> pad_of r <> 0 -> add_old o r = Raise AttributeError) /\
  (~ sound_range r -> add_old o r = Raise AssertionError).
Proof.
  intros o [a b s p|a b s p|a b s p] SL A; try contradiction. clear SL. cbn [add_old pad_of sound_range stands_for]. unfold obj_add_range, add_range. rewrite e9_is.
  split; [|split].
  - intros [S1 [S2 [S3 S4]]] PN. rewrite (proj2 (Z.ltb_lt a b) S1), (proj2 (Z.ltb_lt 0 s) S2), (proj2 (Z.leb_le 0 p) S3), (proj2 (Z.ltb_lt _ _) S4). cbn [negb bind rs_elems rs_pad].
    exists (set_update (ob_elems o) (py_range a b s)). destruct (set_update_spec (py_range a b s) (ob_elems o) A) as [U1 U2].
    assert (IN : forall x, In x (set_update (ob_elems o) (py_range a b s)) <-> In x (ob_elems o) \/ exists n, 0 <= n /\ x = a + n * s /\ x < b).
    { intros x. rewrite U2. pose proof (expand_listing {| sl_start := a; sl_stop := b; sl_step := s |} S2) as [_ EL]. specialize (EL x). unfold denotes, expand in EL. cbn [sl_start sl_stop sl_step] in EL. tauto. }
    split; [|split; [assumption|exact IN]]. unfold with_set, pad_after. cbn [first_padding pad_of]. destruct (ob_padding o) as [[q|]|].
    + destruct (0 <? p); reflexivity.
    + destruct (0 <? p); reflexivity.
    + rewrite (PN eq_refl). reflexivity.
  - intros [S1 [S2 [S3 S4]]] -> NP. rewrite (proj2 (Z.ltb_lt a b) S1), (proj2 (Z.ltb_lt 0 s) S2), (proj2 (Z.leb_le 0 p) S3), (proj2 (Z.ltb_lt _ _) S4). cbn [negb bind].
    rewrite (proj2 (Z.ltb_lt 0 p)) by lia. reflexivity.
  - intros N. destruct (a <? b) eqn:E1; [|reflexivity]. destruct (0 <? s) eqn:E2; [|reflexivity]. destruct (0 <=? p) eqn:E3; [|reflexivity]. destruct (b - a <? 10 ^ 9) eqn:E4; [|reflexivity].
    exfalso. apply N. apply Z.ltb_lt in E1, E2, E4. apply Z.leb_le in E3. auto.
Qed.

Lemma first_padding_app : forall l l', first_padding (l ++ l') = match first_padding l with Some p => Some p | None => first_padding l' end.
Proof. induction l as [|r l IH]; intros l'; [reflexivity|]. cbn [app first_padding]. destruct (0 <? pad_of r); [reflexivity|apply IH]. Qed.

Definition acceptable (p : option (option Z)) (r : old_range) : Prop := sound_range r /\ (p = None -> pad_of r = 0).

Lemma fold_old_spec : forall l o, Forall is_sliced l -> ascending (ob_elems o) -> Forall (acceptable (ob_padding o)) l ->
  exists e, foldM add_old l o = Ok (with_set o e (pad_after (ob_padding o) l)) /\ ascending e /\ forall x, In x e <-> In x (ob_elems o) \/ exists r, In r l /\ stands_for r x.
Proof.
  induction l as [|r l IH]; intros o SL A AC.
  - exists (ob_elems o). cbn [foldM]. split; [|split; [assumption|]].
    + f_equal. unfold with_set, pad_after. destruct o as [e p au v ra le]. cbn. destruct p as [[q|]|]; reflexivity.
    + intros x. split; [auto|]. intros [H|[r [[] _]]]. assumption.
  - inversion SL as [|? ? SL1 SL2]; subst. inversion AC as [|? ? [AC1 AC2] AC3]; subst. destruct (proj1 (add_old_spec o r SL1 A) AC1 AC2) as [e [E1 [E2 E3]]].
    cbn [foldM]. rewrite E1. cbn [bind]. destruct (IH (with_set o e (pad_after (ob_padding o) [r])) SL2 E2) as [e' [F1 [F2 F3]]].
    { cbn [with_set ob_padding]. eapply Forall_impl; [|exact AC3]. intros q [Q1 Q2]. split; [assumption|]. intros N. apply Q2. destruct (ob_padding o) as [[z|]|]; cbn in N; [discriminate|discriminate|reflexivity]. }
    exists e'. rewrite F1. split; [|split; [assumption|]].
    + f_equal. unfold with_set, pad_after. cbn. destruct (ob_padding o) as [[z|]|]; try reflexivity. cbn [first_padding]. destruct (0 <? pad_of r); reflexivity.
    + intros x. rewrite F3. cbn [with_set ob_elems]. rewrite E3. split.
      * intros [[H|H]|[q [H1 H2]]]; [auto| |]; right; [exists r|exists q]; (split; [|assumption]); [left; reflexivity|right; assumption].
      * intros [H|[q [[<-|H1] H2]]]; [auto|auto|]. right. exists q. auto.
Qed.

Lemma foldM_app : forall {A B} (f : B -> A -> res B) l l' b b', foldM f l b = Ok b' -> foldM f (l ++ l') b = foldM f l' b'.
Proof.
  intros A B f l. induction l as [|x l IH]; intros l' b b' H; cbn [foldM app] in *; [injection H as <-; reflexivity|].
  destruct (f b x) as [b1|]; cbn [bind] in *; [|discriminate]. apply IH. assumption.
Qed.

Lemma fold_old_error : forall pre r post o, Forall is_sliced (pre ++ r :: post) -> ascending (ob_elems o) -> Forall (acceptable (ob_padding o)) pre ->
  ~ acceptable (ob_padding o) r -> exists e, foldM add_old (pre ++ r :: post) o = Raise e /\ (~ sound_range r -> e = AssertionError) /\ (sound_range r -> e = AttributeError).
Proof.
  intros pre r post o SL A AC N. apply Forall_app in SL as [SL1 SL2]. inversion SL2 as [|? ? SL3 _]; subst. destruct (fold_old_spec pre o SL1 A AC) as [e [F1 [F2 F3]]].
  rewrite (foldM_app _ _ _ _ _ F1). cbn [foldM]. destruct (add_old_spec (with_set o e (pad_after (ob_padding o) pre)) r SL3 F2) as [_ [Q2 Q3]]. cbn [with_set ob_padding] in Q2.
  assert (DEC : sound_range r \/ ~ sound_range r).
  { destruct r as [a b s p|a b s p|a b s p]; cbn [sound_range]; lia. }
  destruct DEC as [D|D].
  - assert (PN : ob_padding o = None /\ pad_of r <> 0).
    { destruct (ob_padding o) as [z|]; [exfalso; apply N; split; [assumption|discriminate]|]. split; [reflexivity|]. intros P0. apply N. split; auto. }
    destruct PN as [P1 P2]. rewrite Q2; [|assumption|rewrite P1; reflexivity|assumption]. exists AttributeError. split; [reflexivity|]. split; [contradiction|reflexivity].
  - rewrite Q3 by assumption. exists AssertionError. split; [reflexivity|]. split; [reflexivity|contradiction].
Qed.

Lemma acceptable_dec : forall p l, Forall (acceptable p) l \/ exists pre r post, l = pre ++ r :: post /\ Forall (acceptable p) pre /\ ~ acceptable p r.
Proof.
  intros p. induction l as [|r l [IH|[pre [q [post [-> [I1 I2]]]]]]]; [left; constructor| |].
  - assert (D : acceptable p r \/ ~ acceptable p r).
    { assert (DS : sound_range r \/ ~ sound_range r) by (destruct r as [a b s z|a b s z|a b s z]; cbn [sound_range]; lia). destruct DS as [DS|DS]; [|right; intros [C _]; contradiction].
      destruct p as [z|]; [left; split; [assumption|discriminate]|]. destruct (Z.eq_dec (pad_of r) 0) as [E|E]; [left; split; auto|right; intros [_ C]; auto]. }
    destruct D as [D|D]; [left; constructor; assumption|]. right. exists [], r, l. auto.
  - assert (D : acceptable p r \/ ~ acceptable p r).
    { assert (DS : sound_range r \/ ~ sound_range r) by (destruct r as [a b s z|a b s z|a b s z]; cbn [sound_range]; lia). destruct DS as [DS|DS]; [|right; intros [C _]; contradiction].
      destruct p as [z|]; [left; split; [assumption|discriminate]|]. destruct (Z.eq_dec (pad_of r) 0) as [E|E]; [left; split; auto|right; intros [_ C]; auto]. }
    right. destruct D as [D|D]; [exists (r :: pre), q, post|exists [], r, (pre ++ q :: post)]; auto.
Qed.

Lemma acceptable_slices : forall p l, Forall (acceptable p) (map as_slice l) <-> Forall (acceptable p) l.
Proof.
  intros p l. rewrite Forall_map. split; apply Forall_impl; intros r; unfold acceptable; destruct (as_slice_facts r) as [_ [-> [-> _]]]; auto.
Qed.
Lemma slices_sliced : forall l, Forall is_sliced (map as_slice l).
Proof. intros l. apply Forall_map. apply Forall_forall. intros r _. apply as_slice_facts. Qed.
Lemma first_padding_slices : forall l, first_padding (map as_slice l) = first_padding l.
Proof. induction l as [|r l IH]; [reflexivity|]. cbn [map first_padding]. destruct (as_slice_facts r) as [_ [-> _]]. rewrite IH. reflexivity. Qed.

(** A list some entry of which is no slice is not gone through. *)
Lemma fold_not_sliced : forall l o o', foldM add_old l o = Ok o' -> Forall is_sliced l.
Proof.
  induction l as [|r l IH]; intros o o' H; [constructor|]. cbn [foldM] in H. destruct (add_old o r) as [o1|] eqn:E; cbn [bind] in H; [|discriminate].
  constructor; [|eapply IH; exact H]. destruct r; [discriminate|exact I|discriminate].
Qed.

(** ** C102.  An object whose version is the current one just gets the new attributes. *)
Theorem C102_current : forall o d, 3 <= version_after o d ->
  setstate o d = Ok {| ob_elems := ob_elems o; ob_padding := attribute (os_padding d) (ob_padding o); ob_autostep := attribute (os_autostep d) (ob_autostep o);
                       ob_version := attribute (os_version d) (ob_version o); ob_ranges := attribute (os_ranges d) (ob_ranges o); ob_length := attribute (os_length d) (ob_length o) |}.
Proof.
  intros o d V. unfold setstate. change (version_of (dict_update o d)) with (version_after o d). replace (version_after o d <? 3) with false by (symmetry; apply Z.ltb_ge; lia). reflexivity.
Qed.
Print Assumptions C102_current.

(** A state of an older version is taken over exactly if its entries have the shape of the version and
    are sound, the attribute _length is there, and there is an attribute padding or no entry is padded;
    the set then also has all the integers of the entries, the padding is the one it had or else the
    first one of an entry, and the old attributes are gone. *)
Theorem C102_old : forall o d l, ascending (ob_elems o) -> version_after o d < 3 -> attribute (os_ranges d) (ob_ranges o) = Some l ->
  ((exists o', setstate o d = Ok o') <->
   of_version (version_after o d) l /\ Forall sound_range l /\ attribute (os_length d) (ob_length o) <> None /\
   (attribute (os_padding d) (ob_padding o) = None -> Forall (fun r => pad_of r = 0) l)) /\
  forall o', setstate o d = Ok o' ->
    ascending (ob_elems o') /\ (forall x, In x (ob_elems o') <-> In x (ob_elems o) \/ exists r, In r l /\ stands_for r x) /\
    ob_padding o' = match attribute (os_padding d) (ob_padding o) with Some None => Some (first_padding l) | p => p end /\
    ob_autostep o' = attribute (os_autostep d) (ob_autostep o) /\ ob_version o' = attribute (os_version d) (ob_version o) /\
    ob_ranges o' = None /\ ob_length o' = None.
Proof.
  intros o d l A V R. set (o1 := dict_update o d).
  assert (A1 : ascending (ob_elems o1)) by exact A. assert (R1 : ob_ranges o1 = Some l) by exact R. assert (V1 : version_of o1 < 3) by exact V.
  assert (SE : setstate o d = (l <- converted o1 ;; o' <- foldM add_old l o1 ;; match ob_length o' with None => Raise AttributeError | Some _ => Ok {| ob_elems := ob_elems o'; ob_padding := ob_padding o'; ob_autostep := ob_autostep o'; ob_version := ob_version o'; ob_ranges := None; ob_length := None |} end)).
  { unfold setstate. fold o1. replace (version_of o1 <? 3) with true by (symmetry; apply Z.ltb_lt; lia). reflexivity. }
  destruct (converted_ok o1 l R1 V1) as [CO1 CO2]. change (version_after o d) with (version_of o1) in *. change (attribute (os_padding d) (ob_padding o)) with (ob_padding o1).
  change (attribute (os_length d) (ob_length o)) with (ob_length o1). change (attribute (os_autostep d) (ob_autostep o)) with (ob_autostep o1). change (attribute (os_version d) (ob_version o)) with (ob_version o1).
  assert (FW : of_version (version_of o1) l -> Forall (acceptable (ob_padding o1)) l -> ob_length o1 <> None ->
    exists e, setstate o d = Ok {| ob_elems := e; ob_padding := pad_after (ob_padding o1) l; ob_autostep := ob_autostep o1; ob_version := ob_version o1; ob_ranges := None; ob_length := None |} /\
      ascending e /\ forall x, In x e <-> In x (ob_elems o1) \/ exists r, In r l /\ stands_for r x).
  { intros OV AC LN. destruct (fold_old_spec (map as_slice l) o1 (slices_sliced l) A1 (proj2 (acceptable_slices _ _) AC)) as [e [F1 [F2 F3]]].
    exists e. rewrite SE, (CO2 OV). cbn [bind]. rewrite F1. cbn [bind with_set ob_length]. destruct (ob_length o1) as [z|]; [|contradiction].
    split; [|split; [assumption|]].
    - f_equal. cbn. f_equal. unfold pad_after. rewrite first_padding_slices. reflexivity.
    - intros x. rewrite F3. split; intros [H|[r [H1 H2]]]; auto; right.
      + apply in_map_iff in H1 as [q [<- H1]]. exists q. split; [assumption|]. apply as_slice_facts. assumption.
      + exists (as_slice r). split; [apply in_map; assumption|]. apply as_slice_facts. assumption. }
  assert (BW : forall o', setstate o d = Ok o' -> of_version (version_of o1) l /\ Forall (acceptable (ob_padding o1)) l /\ ob_length o1 <> None).
  { intros o' H. rewrite SE in H. destruct (converted o1) as [l'|] eqn:EC; cbn [bind] in H; [|discriminate]. destruct (foldM add_old l' o1) as [o2|] eqn:EF; cbn [bind] in H; [|discriminate].
    destruct CO1 as [_ CO1]. destruct (CO1 (fold_not_sliced _ _ _ EF)) as [OV ->]. split; [assumption|].
    destruct (acceptable_dec (ob_padding o1) (map as_slice l)) as [AC|[pre [r [post [E [AC NA]]]]]].
    - split; [apply acceptable_slices; assumption|]. destruct (fold_old_spec (map as_slice l) o1 (slices_sliced l) A1 AC) as [e [F1 _]]. rewrite F1 in EF. injection EF as <-. cbn [with_set ob_length] in H.
      destruct (ob_length o1); [discriminate|discriminate].
    - exfalso. pose proof (slices_sliced l) as SL. rewrite E in SL, EF. destruct (fold_old_error pre r post o1 SL A1 AC NA) as [e [F1 _]]. congruence. }
  assert (AE : Forall (acceptable (ob_padding o1)) l <-> Forall sound_range l /\ (ob_padding o1 = None -> Forall (fun r => pad_of r = 0) l)).
  { rewrite !Forall_forall. split; [intros H; split; [intros r Hr; apply (H r Hr)|intros N r Hr; apply (H r Hr); assumption]|].
    intros [H1 H2] r Hr. split; [apply H1; assumption|]. intros N. apply (H2 N). assumption. }
  split.
  - split.
    + intros [o' H]. destruct (BW o' H) as [B1 [B2 B3]]. apply AE in B2. tauto.
    + intros [B1 [B2 [B3 B4]]]. destruct (FW B1 (proj2 AE (conj B2 B4)) B3) as [e [E _]]. eexists. exact E.
  - intros o' H. destruct (BW o' H) as [B1 [B2 B3]]. destruct (FW B1 B2 B3) as [e [E [E2 E3]]]. rewrite E in H. injection H as <-. cbn. split; [assumption|]. split; [exact E3|]. split; [unfold pad_after; destruct (newer (os_padding d) (ob_padding o)) as [[z|]|]; reflexivity|]. auto.
Qed.
Print Assumptions C102_old.

(** Without the attribute _ranges there is an AttributeError. *)
Theorem C102_no_ranges : forall o d, version_after o d < 3 -> attribute (os_ranges d) (ob_ranges o) = None -> setstate o d = Raise AttributeError.
Proof.
  intros o d V R. unfold setstate. change (version_of (dict_update o d)) with (version_after o d). rewrite (proj2 (Z.ltb_lt _ _) V). unfold converted.
  change (ob_ranges (dict_update o d)) with (attribute (os_ranges d) (ob_ranges o)). rewrite R. reflexivity.
Qed.
Print Assumptions C102_no_ranges.

(** The first entry that is not sound raises AssertionError; the first one that needs an attribute padding
    that is not there, AttributeError; and so does an object without _length, in the end. *)
Theorem C102_errors : forall o d l, ascending (ob_elems o) -> version_after o d < 3 -> attribute (os_ranges d) (ob_ranges o) = Some l -> of_version (version_after o d) l ->
  (forall pre r post, l = pre ++ r :: post -> Forall sound_range pre -> (attribute (os_padding d) (ob_padding o) = None -> Forall (fun r => pad_of r = 0) pre) ->
     (~ sound_range r -> setstate o d = Raise AssertionError) /\
     (sound_range r -> attribute (os_padding d) (ob_padding o) = None -> pad_of r <> 0 -> setstate o d = Raise AttributeError)) /\
  (Forall sound_range l -> (attribute (os_padding d) (ob_padding o) = None -> Forall (fun r => pad_of r = 0) l) -> attribute (os_length d) (ob_length o) = None ->
     setstate o d = Raise AttributeError).
Proof.
  intros o d l A V R OV. set (o1 := dict_update o d).
  assert (A1 : ascending (ob_elems o1)) by exact A. assert (R1 : ob_ranges o1 = Some l) by exact R. assert (V1 : version_of o1 < 3) by exact V.
  change (version_after o d) with (version_of o1) in *. change (attribute (os_padding d) (ob_padding o)) with (ob_padding o1). change (attribute (os_length d) (ob_length o)) with (ob_length o1).
  destruct (converted_ok o1 l R1 V1) as [_ CO2].
  assert (SE : setstate o d = (o' <- foldM add_old (map as_slice l) o1 ;; match ob_length o' with None => Raise AttributeError | Some _ => Ok {| ob_elems := ob_elems o'; ob_padding := ob_padding o'; ob_autostep := ob_autostep o'; ob_version := ob_version o'; ob_ranges := None; ob_length := None |} end)).
  { unfold setstate. fold o1. replace (version_of o1 <? 3) with true by (symmetry; apply Z.ltb_lt; lia). rewrite (CO2 OV). reflexivity. }
  assert (AE : forall l, Forall sound_range l -> (ob_padding o1 = None -> Forall (fun r => pad_of r = 0) l) -> Forall (acceptable (ob_padding o1)) (map as_slice l)).
  { intros k H1 H2. apply acceptable_slices. apply Forall_forall. intros r Hr. split; [revert r Hr; apply Forall_forall; assumption|]. intros N. specialize (H2 N). rewrite Forall_forall in H2. apply H2. assumption. }
  split.
  - intros pre r post -> P1 P2. pose proof (slices_sliced (pre ++ r :: post)) as SL. rewrite map_app in SE, SL. cbn [map] in SE, SL. destruct (as_slice_facts r) as [_ [F2 [F3 _]]].
    split.
    + intros N. destruct (fold_old_error _ _ _ o1 SL A1 (AE _ P1 P2)) as [e [F [E1 _]]]; [intros [C _]; apply N, F3, C|]. rewrite SE, F, E1 by (intros C; apply N, F3, C). reflexivity.
    + intros S PN PO. destruct (fold_old_error _ _ _ o1 SL A1 (AE _ P1 P2)) as [e [F [_ E1]]]; [intros [_ C]; apply PO; rewrite <- F2; apply C, PN|]. rewrite SE, F, E1 by (apply F3, S). reflexivity.
  - intros P1 P2 LN. destruct (fold_old_spec (map as_slice l) o1 (slices_sliced l) A1 (AE _ P1 P2)) as [e [F1 _]]. rewrite SE, F1. cbn [bind with_set ob_length]. rewrite LN. reflexivity.
Qed.
Print Assumptions C102_errors.

(** Entries up to version 1 that are not all quadruples raise ValueError, whatever else is wrong; and so,
    in version 2, do entries whose first is a quadruple. *)
Theorem C102_shapes : forall o d l, attribute (os_ranges d) (ob_ranges o) = Some l ->
  (version_after o d <= 1 -> ~ Forall is_quad l -> setstate o d = Raise ValueError) /\
  (version_after o d = 2 -> forall r l', l = r :: l' -> is_quad r -> setstate o d = Raise ValueError) /\
  (version_after o d = 2 -> forall pre q l', l = pre ++ q :: l' -> pre <> [] -> Forall is_triple pre -> ~ is_triple q ->
     setstate o d = Raise (match q with Quad _ _ _ _ => ValueError | _ => TypeError end)).
Proof.
  intros o d l R. set (o1 := dict_update o d). assert (R1 : ob_ranges o1 = Some l) by exact R. change (version_after o d) with (version_of o1).
  assert (SE : version_of o1 < 3 -> forall e, converted o1 = Raise e -> setstate o d = Raise e).
  { intros V e C. unfold setstate. fold o1. rewrite (proj2 (Z.ltb_lt _ _) V), C. reflexivity. }
  split; [|split].
  - intros V N. apply SE; [lia|]. unfold converted. rewrite R1, (proj2 (Z.leb_le _ _) V). clear - N. induction l as [|r l IH]; [exfalso; apply N; constructor|].
    cbn [mapM]. destruct r as [a b s p|a b s p|a b s p]; cbn [bind]; try reflexivity. rewrite IH; [reflexivity|]. intros C. apply N. constructor; [exact I|assumption].
  - intros V r l' -> Q. apply SE; [lia|]. unfold converted. rewrite R1, V. change (2 <=? 1) with false. cbn iota. destruct r; try contradiction. reflexivity.
  - intros V pre q l' -> NE T NT. apply SE; [lia|]. unfold converted. rewrite R1, V. change (2 <=? 1) with false. cbn iota.
    assert (G : mapM (fun r => match r with Triple a b s p => Ok (Sliced a b s p) | Sliced _ _ _ _ => Raise TypeError | Quad _ _ _ _ => Raise ValueError end) (pre ++ q :: l')
                = Raise (match q with Quad _ _ _ _ => ValueError | _ => TypeError end)).
    { clear - T NT. induction pre as [|r pre IH]; cbn [app mapM].
      - destruct q; [reflexivity|reflexivity|exfalso; apply NT; exact I].
      - inversion T as [|? ? T1 T2]; subst. destruct r; try contradiction. cbn [bind]. rewrite IH by assumption. reflexivity. }
    destruct pre as [|r pre]; [contradiction|]. inversion T as [|? ? T1 T2]; subst. cbn [app] in G |- *. destruct r; try contradiction. exact G.
Qed.
Print Assumptions C102_shapes.

(** Versions 1, 2 and 2 from older Pythons of the RangeSet 03-05,10-20/5. *)
Definition blank : rs_obj := {| ob_elems := []; ob_padding := None; ob_autostep := None; ob_version := None; ob_ranges := None; ob_length := None |}.
Definition old_state (v : option Z) (l : list old_range) : rs_state := {| os_padding := Some None; os_autostep := Some (Some 3); os_version := v; os_ranges := Some l; os_length := Some 6 |}.
Example C102_example : forall v l, In (v, l) [(None, [Quad 3 5 1 2; Quad 10 20 5 0]); (Some 2, [Sliced 3 6 1 2; Sliced 10 21 5 0]); (Some 2, [Triple 3 6 1 2; Triple 10 21 5 0])] ->
  ascending (ob_elems blank) /\ version_after blank (old_state v l) < 3 /\ of_version (version_after blank (old_state v l)) l /\ Forall sound_range l /\
  setstate blank (old_state v l) = Ok {| ob_elems := [3; 4; 5; 10; 15; 20]; ob_padding := Some (Some 2); ob_autostep := Some (Some 3); ob_version := v; ob_ranges := None; ob_length := None |}.
Proof.
  intros v l [H|[H|[H|[]]]]; injection H as <- <-; (split; [constructor|]); (split; [vm_compute; reflexivity|]).
  - split; [cbn; repeat constructor|]. split; [repeat constructor; cbn; lia|]. vm_compute. reflexivity.
  - split; [left; cbn; repeat constructor|]. split; [repeat constructor; cbn; lia|]. vm_compute. reflexivity.
  - split; [right; cbn; repeat constructor|]. split; [repeat constructor; cbn; lia|]. vm_compute. reflexivity.
Qed.
