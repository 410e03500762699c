(** When the text of a RangeSet cannot be read back (C30, C70). *)
From Verif Require Import Py TokenModel RangeSetModel RangeMoreModel RangeSpec Lib RangeProof.
From Coq Require Import Sorting.Sorted.
Open Scope list_scope.
Open Scope Z_scope.

(** Reading a text that begins with a minus sign. *)
Lemma parse_minus : forall cc r t, parse_subrange cc r (45%N :: t) = Raise RangeSetParseError.
Proof.
  intros cc r t. unfold parse_subrange. cbn [split1]. change (45 =? 47)%N with false. cbn iota.
  assert (E : forall b, split1 45 (45%N :: b) = Some ([], b)) by reflexivity.
  assert (I : int_or_error cc [] = Raise RangeSetParseError) by reflexivity.
  destruct (split1 47 t) as [[a b]|].
  - destruct (int_or_error cc b) as [st|e] eqn:B.
    + cbn [bind]. rewrite E. cbn [bind]. rewrite I. reflexivity.
    + unfold int_or_error in B. destruct (py_int cc b); [discriminate|]. injection B as <-. reflexivity.
  - cbn [bind]. rewrite E. cbn [bind]. rewrite I. reflexivity.
Qed.

Lemma fmt_no_comma : forall p z, ~ In 44%N (fmt p z).
Proof.
  intros p z Q. unfold fmt in Q. assert (N44 : ~ is_digit 44%N) by (unfold is_digit; lia). apply in_app_iff in Q as [Q|Q].
  - destruct (z <? 0); [destruct Q as [Q|[]]; discriminate Q|destruct Q].
  - apply in_app_iff in Q as [Q|Q]; [apply repeat_spec in Q; discriminate Q|exact (digits_no _ _ (uint_chars_digits _) N44 Q)].
Qed.
Lemma text_no_comma : forall p s, ~ In 44%N (slice_text p s).
Proof.
  intros p s Q. unfold slice_text in Q. destruct (_ =? sl_stop s); [exact (fmt_no_comma _ _ Q)|].
  apply in_app_iff in Q as [Q|[Q|Q]]; [exact (fmt_no_comma _ _ Q)|discriminate Q|].
  apply in_app_iff in Q as [Q|Q]; [exact (fmt_no_comma _ _ Q)|]. destruct (sl_step s =? 1); [contradiction|]. destruct Q as [Q|Q]; [discriminate Q|exact (fmt_no_comma _ _ Q)].
Qed.
Lemma text_minus : forall p s, sl_start s < 0 -> exists t, slice_text p s = 45%N :: t.
Proof.
  intros p s H. assert (F : exists t, fmt p (sl_start s) = 45%N :: t).
  { unfold fmt. replace (sl_start s <? 0) with true by (symmetry; apply Z.ltb_lt; lia). eexists. reflexivity. }
  destruct F as [t F]. unfold slice_text. rewrite F. destruct (_ =? sl_stop s); eexists; reflexivity.
Qed.

(** The text of a set is read slice by slice. *)
Lemma parse_text : forall cc r autostep, ascending (rs_elems r) -> rs_elems r <> [] ->
  exists text, rs_str r = Ok text /\ parse cc text autostep = foldM (parse_subrange cc) (map (slice_text (rs_padding r)) (slices r)) (rs_empty autostep).
Proof.
  intros cc r autostep A NE. rewrite rs_str_ok by assumption. eexists. split; [reflexivity|]. unfold parse. change (lit ",") with [44%N]. rewrite split_join; [reflexivity| |].
  - intros Q. apply map_eq_nil in Q. destruct (slices_spec r A) as [_ F]. rewrite Q in F. apply NE. symmetry. exact F.
  - apply Forall_forall. intros t Ht. apply in_map_iff in Ht as [s [<- _]]. apply text_no_comma.
Qed.

Lemma parse_negative : forall cc r autostep x, ascending (rs_elems r) -> has r x -> x < 0 ->
  exists text, rs_str r = Ok text /\ parse cc text autostep = Raise RangeSetParseError.
Proof.
  intros cc r autostep x A Hx Hn. assert (NE : rs_elems r <> []) by (intros Q; unfold has in Hx; rewrite Q in Hx; destruct Hx).
  destruct (parse_text cc r autostep A NE) as [text [E1 E2]]. exists text. split; [exact E1|]. rewrite E2. clear E1 E2 text.
  destruct (slices_spec r A) as [P F]. destruct (slices r) as [|s ss] eqn:S; [exfalso; apply NE; symmetry; exact F|].
  assert (L : sl_start s < 0).
  { inversion P as [|? ? P1 P2]; subst. cbn [flat_map] in F. unfold has in Hx. rewrite <- F in A, Hx.
    assert (I : In (sl_start s) (expand s)) by (destruct P1 as [Q1 Q2]; apply (proj2 (expand_listing s Q2)); exists 0; lia).
    destruct (expand s) as [|y l] eqn:X; [destruct I|]. cbn [app] in A, Hx. inversion A as [|? ? A1 A2]; subst. rewrite Forall_forall in A2.
    assert (M : forall z, In z (y :: l ++ flat_map expand ss) -> y <= z) by (intros z [<-|Hz]; [lia|specialize (A2 z Hz); lia]).
    specialize (M x Hx).
    assert (D : denotes s y) by (apply (proj2 (expand_listing s (proj2 P1))); rewrite X; left; reflexivity).
    destruct D as [j D]. destruct P1 as [Q1 Q2]. nia. }
  destruct (text_minus (rs_padding r) s L) as [t T]. cbn [map foldM]. rewrite T, parse_minus. reflexivity.
Qed.

(** A slice of non-negative numbers that is too large. *)
Section Large.
  Variable cc : cclass.
  Hypothesis space_digit : forall c, is_digit c -> iss cc c = false.

  Lemma parse_slice_too_large : forall p s r, 0 <= p -> proper s -> 0 <= sl_start s -> ~ readable s ->
    parse_subrange cc r (slice_text p s) = Raise (if e100 <? sl_stop s - 1 then RangeSetParseError else AssertionError).
  Proof.
    intros p [start stop step] r Hp [H1 H2] H3 NR. unfold readable, proper in NR. cbn [sl_start sl_stop sl_step] in *. unfold slice_text. cbn [sl_start sl_stop sl_step].
    assert (N47 : ~ is_digit 47%N) by (unfold is_digit; lia). assert (N45 : ~ is_digit 45%N) by (unfold is_digit; lia).
    pose proof (fmt_digits p start H3) as D1. pose proof (fmt_digits p (stop - 1) ltac:(lia)) as D2. pose proof (fmt_digits 0 step ltac:(lia)) as D3.
    assert (SP : 0 <= seen p start) by (unfold seen; destruct (_ <? _)%nat; lia).
    assert (AR : forall st', 0 < st' -> (if (e100 <? stop - 1) || (stop - 1 <? start) || (st' <? 1) then Raise RangeSetParseError else add_range r start (stop - 1 + 1) st' (seen p start)) =
              Raise (if e100 <? stop - 1 then RangeSetParseError else AssertionError)).
    { intros st' Hst. replace (stop - 1 <? start) with false by (symmetry; apply Z.ltb_ge; lia). replace (st' <? 1) with false by (symmetry; apply Z.ltb_ge; lia). rewrite !orb_false_r.
      destruct (e100 <? stop - 1) eqn:E; [reflexivity|]. apply Z.ltb_ge in E. unfold add_range. replace (stop - 1 + 1) with stop by lia.
      replace (start <? stop) with true by (symmetry; apply Z.ltb_lt; lia). replace (0 <? st') with true by (symmetry; apply Z.ltb_lt; lia).
      replace (0 <=? seen p start) with true by (symmetry; apply Z.leb_le; lia). replace (stop - start <? e9) with false by (symmetry; apply Z.ltb_ge; lia). reflexivity. }
    pose proof (begin_ok cc space_digit p start Hp H3) as B. pose proof (end_number cc space_digit p (stop - 1) ltac:(lia)) as F.
    rewrite (int_fmt cc space_digit) in B by assumption. cbn [bind] in B. rewrite (int_fmt cc space_digit) in F by lia. cbn [bind] in F.
    destruct (start + 1 =? stop) eqn:U.
    - apply Z.eqb_eq in U. unfold parse_subrange. rewrite (split1_none 47) by (apply digits_no; assumption). cbn [bind]. rewrite (split1_none 45) by (apply digits_no; assumption). cbn [Z.eqb negb bind].
      change (Pos.eqb 1 1) with true. cbn [negb bind]. rewrite (int_fmt cc space_digit) by assumption. cbn [bind]. cbn zeta in B |- *. rewrite B. cbn [bind].
      assert (ES : stop - 1 = start) by lia. rewrite ES in F. rewrite F. cbn [bind].
      specialize (AR 1 ltac:(lia)). rewrite ES in AR. rewrite ES. exact AR.
    - apply Z.eqb_neq in U. destruct (step =? 1) eqn:S1.
      + apply Z.eqb_eq in S1. subst step. rewrite app_nil_r. unfold parse_subrange.
        rewrite (split1_none 47).
        2:{ intros Q. apply in_app_iff in Q as [Q|[Q|Q]]; [exact (digits_no _ _ D1 N47 Q)|discriminate Q|exact (digits_no _ _ D2 N47 Q)]. }
        cbn [bind]. rewrite split1_some by (apply digits_no; assumption). cbn [bind]. rewrite (int_fmt cc space_digit) by assumption. cbn [bind]. cbn zeta in B |- *. rewrite B. cbn [bind].
        rewrite (int_fmt cc space_digit) by lia. cbn [bind]. rewrite F. cbn [bind]. apply (AR 1). lia.
      + apply Z.eqb_neq in S1. unfold parse_subrange. replace (fmt p start ++ 45%N :: fmt p (stop - 1) ++ 47%N :: fmt 0 step) with ((fmt p start ++ 45%N :: fmt p (stop - 1)) ++ 47%N :: fmt 0 step) by (rewrite <- app_assoc; reflexivity).
        rewrite (split1_some 47).
        2:{ intros Q. apply in_app_iff in Q as [Q|[Q|Q]]; [exact (digits_no _ _ D1 N47 Q)|discriminate Q|exact (digits_no _ _ D2 N47 Q)]. }
        rewrite (int_fmt cc space_digit 0 step) by lia. cbn [bind]. rewrite split1_some by (apply digits_no; assumption). cbn [bind]. rewrite (int_fmt cc space_digit) by assumption. cbn [bind]. cbn zeta in B |- *. rewrite B. cbn [bind].
        rewrite (int_fmt cc space_digit) by lia. cbn [bind]. rewrite F. cbn [bind]. apply AR. lia.
  Qed.

  (** The first slice that cannot be read decides. *)
  Lemma parse_too_large : forall p e ss r, 0 <= p -> Forall proper ss -> Forall (fun s => 0 <= sl_start s) ss -> Exists (fun s => ~ readable s) ss ->
    Forall (fun s => ~ readable s -> (if e100 <? sl_stop s - 1 then RangeSetParseError else AssertionError) = e) ss ->
    foldM (parse_subrange cc) (map (slice_text p) ss) r = Raise e.
  Proof.
    intros p e ss. induction ss as [|s ss IH]; intros r Hp P N X K; [inversion X|]. inversion P as [|? ? P1 P2]; subst. inversion N as [|? ? N1 N2]; subst. inversion K as [|? ? K1 K2]; subst.
    cbn [map foldM].
    assert (D : readable s \/ ~ readable s).
    { unfold readable, proper. destruct (Z_le_dec (sl_stop s - 1) e100); [|right; lia]. destruct (Z_lt_dec (sl_stop s - sl_start s) e9); [|right; lia]. left. destruct P1. repeat split; try lia; assumption. }
    destruct D as [D|D].
    - rewrite (parse_slice cc space_digit p s r Hp D). cbn [bind]. apply IH; try assumption. inversion X; subst; [contradiction|assumption].
    - rewrite (parse_slice_too_large p s r Hp P1 N1 D), (K1 D). reflexivity.
  Qed.
  Lemma parse_unreadable : forall p ss r, 0 <= p -> Forall proper ss -> Forall (fun s => 0 <= sl_start s) ss -> Exists (fun s => ~ readable s) ss ->
    exists e, foldM (parse_subrange cc) (map (slice_text p) ss) r = Raise e.
  Proof.
    intros p ss. induction ss as [|s ss IH]; intros r Hp P N X; [inversion X|]. inversion P as [|? ? P1 P2]; subst. inversion N as [|? ? N1 N2]; subst. cbn [map foldM].
    destruct (parse_subrange cc r (slice_text p s)) as [r'|e] eqn:E; [|exists e; reflexivity]. cbn [bind]. apply IH; try assumption.
    inversion X as [? ? D|]; subst; [|assumption]. rewrite (parse_slice_too_large p s r Hp P1 N1 D) in E. discriminate.
  Qed.
End Large.
