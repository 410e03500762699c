(** The token array, its blocks and their occurrences. *)
From Verif Require Import Py Lib TokenModel SuffixModel IndexModel SuffixSpec RadixProof DC3Proof
  BlockProof SuffixProof.
From Coq Require Import Permutation Sorted.

(** ** Layout of the token array *)
Fixpoint stamped (pos : nat) (c : collation) : list iwitness :=
  match c with
  | [] => []
  | w :: c' => {| iw_sigil := w_sigil w; iw_toks := stamp (w_sigil w) pos (w_toks w) |}
               :: stamped (pos + length (w_toks w) + 1) c'
  end.

Fixpoint layout (idx pos : nat) (c : collation) : list token :=
  match c with
  | [] => []
  | w :: c' => stamp (w_sigil w) pos (w_toks w) ++ [marker idx (pos + length (w_toks w)) (w_sigil w)]
               ++ layout (idx + 1) (pos + length (w_toks w) + 1) c'
  end.

Definition range_entry (iw : iwitness) : str * list nat := (iw_sigil iw, map tk_pos (iw_toks iw)).

Lemma stamp_length : forall sg ts pos, length (stamp sg pos ts) = length ts.
Proof. induction ts; simpl; intros; auto. Qed.

Lemma stamp_pos : forall sg ts pos, map tk_pos (stamp sg pos ts) = seq pos (length ts).
Proof. induction ts; simpl; intros; auto. f_equal. rewrite IHts, Nat.add_1_r. reflexivity. Qed.

Lemma stamp_nth : forall sg ts pos i t, nth_error (stamp sg pos ts) i = Some t -> tk_pos t = pos + i.
Proof.
  induction ts; intros pos i t H; [destruct i; discriminate|]. destruct i; simpl in H.
  - injection H as <-. simpl. lia.
  - apply IHts in H. lia.
Qed.

Lemma prepare_loop_spec : forall c idx pos ranges arr out,
  Forall (fun w => w_toks w <> []) c -> NoDup (map fst ranges ++ map w_sigil c) ->
  prepare_loop c idx pos pos ranges arr out =
  Ok (ranges ++ map range_entry (stamped pos c), arr ++ layout idx pos c, out ++ stamped pos c).
Proof.
  induction c as [|w c IH]; intros idx pos ranges arr out NE ND.
  - simpl. rewrite !app_nil_r. reflexivity.
  - inversion NE; subst. cbn [prepare_loop stamped layout map].
    assert (L : 0 < length (w_toks w)) by (destruct (w_toks w); [congruence|simpl; lia]).
    unfold range_of. destruct (Nat.ltb_spec pos (pos + length (w_toks w))); [|lia]. cbn [bind].
    replace (pos + length (w_toks w) - pos) with (length (w_toks w)) by lia.
    simpl in ND. rewrite (dset_new _ str_eqb_ok).
    2:{ apply NoDup_remove_2 in ND. rewrite in_app_iff in ND. tauto. }
    rewrite IH; auto.
    + assert (RE : range_entry {| iw_sigil := w_sigil w; iw_toks := stamp (w_sigil w) pos (w_toks w) |}
        = (w_sigil w, seq pos (length (w_toks w)))) by (unfold range_entry; simpl; rewrite stamp_pos; reflexivity).
      rewrite RE.
      f_equal. f_equal; [f_equal|]; rewrite <- ?app_assoc; reflexivity.
    + rewrite map_app. cbn [map fst]. rewrite <- app_assoc. exact ND.
Qed.

Lemma prepare_loop_nonempty : forall c idx pos tap ranges arr out r,
  prepare_loop c idx pos tap ranges arr out = Ok r -> Forall (fun w => w_toks w <> []) c.
Proof.
  induction c as [|w c IH]; intros idx pos tap ranges arr out r H; constructor.
  - intro E. cbn [prepare_loop] in H. rewrite E in H. simpl in H. unfold range_of in H.
    rewrite Nat.add_0_r in H. rewrite Nat.ltb_irrefl in H. discriminate.
  - cbn [prepare_loop] in H. apply bind_ok in H as [x [_ H]]. eauto.
Qed.

Record index_ok (c : collation) (ti : tindex) : Prop := {
  ix_wits : ti_wits ti = stamped 0 c;
  ix_ranges : ti_ranges ti = map range_entry (stamped 0 c);
  ix_array : ti_array ti = removelast (layout 0 0 c);
  ix_nonempty : Forall (fun w => w_toks w <> []) c;
  ix_some : c <> [];
  ix_nodup : NoDup (map w_sigil c);
  ix_inst : construct_instances (ti_array ti) (ti_sa ti) (ti_blocks ti) = Ok (ti_instances ti)
}.

Lemma layout_nil : forall c idx pos, layout idx pos c = [] -> c = [].
Proof. destruct c; auto. simpl. intros. apply app_eq_nil in H as [_ H]. discriminate. Qed.

Lemma prepare_index_ok : forall c ti, NoDup (map w_sigil c) -> prepare c = Ok ti -> index_ok c ti.
Proof.
  intros c ti ND H. unfold prepare in H. apply bind_ok in H as [[[r a] o] [H1 H]].
  unfold prepare_array in H1. apply bind_ok in H1 as [[[r' a'] o'] [H1 H2]].
  pose proof (prepare_loop_nonempty _ _ _ _ _ _ _ _ H1) as NE.
  rewrite prepare_loop_spec in H1; auto. injection H1 as <- <- <-.
  simpl in H2. apply bind_ok in H2 as [a2 [H2 H3]]. injection H3 as <- <- <-.
  apply bind_ok in H as [sa [E1 H]]. apply bind_ok in H as [bs [E2 H]]. apply bind_ok in H as [inst [E3 H]].
  injection H as <-. 
  assert (N : layout 0 0 c <> []) by (intro C; rewrite C in H2; discriminate).
  assert (a2 = removelast (layout 0 0 c)).
  { destruct (layout 0 0 c); [congruence|]. unfold pop_last in H2. injection H2 as <-. reflexivity. }
  subst a2. constructor; simpl; auto. intros ->. apply N. reflexivity.
Qed.

(** Every token of a stamped witness is found at its position. *)
Lemma layout_nth : forall c idx pos iw t, In iw (stamped pos c) -> In t (iw_toks iw) ->
  pos <= tk_pos t /\ tk_pos t + 1 < pos + length (layout idx pos c) /\
  nth_error (layout idx pos c) (tk_pos t - pos) = Some t.
Proof.
  induction c as [|w c IH]; intros idx pos iw t H Ht; [contradiction|]. cbn [stamped layout] in *.
  rewrite !app_length, stamp_length. cbn [length].
  destruct H as [<-|H].
  - simpl in Ht. apply In_nth_error in Ht as [i Hi]. pose proof (stamp_nth _ _ _ _ _ Hi) as P.
    assert (Li : i < length (w_toks w)) by (rewrite <- (stamp_length (w_sigil w) (w_toks w) pos); apply nth_error_Some; congruence).
    split; [lia|]. split; [lia|]. replace (tk_pos t - pos) with i by lia.
    rewrite nth_error_app1 by (rewrite stamp_length; assumption). assumption.
  - destruct (IH (idx + 1) (pos + length (w_toks w) + 1) iw t H Ht) as [A [B C]].
    split; [lia|]. split; [lia|]. rewrite app_assoc, nth_error_app2 by (rewrite app_length, stamp_length; simpl; lia).
    rewrite app_length, stamp_length. cbn [length]. rewrite <- C. f_equal. lia.
Qed.

Lemma nth_error_removelast : forall {A} (l : list A) i, S i < length l -> nth_error (removelast l) i = nth_error l i.
Proof.
  intros A l i H. destruct l as [|a l]; [simpl in H; lia|].
  rewrite (app_removelast_last a (l := a :: l)) at 2 by discriminate. rewrite nth_error_app1; auto.
  pose proof (app_removelast_last a (l := a :: l)) as E. 
  assert (L : length (a :: l) = length (removelast (a :: l)) + 1).
  { rewrite E at 1 by discriminate. rewrite app_length. reflexivity. } lia.
Qed.

Lemma stamped_pos_ge : forall c pos iw t, In iw (stamped pos c) -> In t (iw_toks iw) -> pos <= tk_pos t.
Proof. intros. apply (layout_nth c 0 pos iw t H H0). Qed.

(** Positions are distinct across the witnesses and increase from witness to witness. *)
Lemma stamped_sorted : forall c pos,
  StronglySorted (fun a b => forall t u, In t (iw_toks a) -> In u (iw_toks b) -> tk_pos t < tk_pos u) (stamped pos c).
Proof.
  induction c as [|w c IH]; intros pos; simpl; constructor; auto.
  rewrite Forall_forall. intros iw H t u Ht Hu. apply (stamped_pos_ge _ _ _ _ H) in Hu.
  simpl in Ht. apply In_nth_error in Ht as [i Hi]. pose proof (stamp_nth _ _ _ _ _ Hi).
  assert (i < length (w_toks w)) by (rewrite <- (stamp_length (w_sigil w) (w_toks w) pos); apply nth_error_Some; congruence).
  lia.
Qed.

Lemma stamped_toks : forall c pos iw, In iw (stamped pos c) -> exists p w, In w c /\
  iw_sigil iw = w_sigil w /\ iw_toks iw = stamp (w_sigil w) p (w_toks w).
Proof.
  induction c as [|w c IH]; intros pos iw H; [contradiction|]. destruct H as [<-|H].
  - exists pos, w. simpl. auto.
  - destruct (IH _ _ H) as [p [w' [A B]]]. exists p, w'. split; [right; assumption|assumption].
Qed.

Lemma stamped_sigla : forall c pos, map iw_sigil (stamped pos c) = map w_sigil c.
Proof. induction c; simpl; intros; auto. f_equal. auto. Qed.

Section Index.
  Variables (c : collation) (ti : tindex).
  Hypothesis IX : index_ok c ti.

  Lemma ix_nth : forall iw t, In iw (ti_wits ti) -> In t (iw_toks iw) -> nth_error (ti_array ti) (tk_pos t) = Some t.
  Proof.
    intros iw t H Ht. rewrite (ix_wits _ _ IX) in H. rewrite (ix_array _ _ IX).
    destruct (layout_nth c 0 0 iw t H Ht) as [_ [B C]]. rewrite Nat.sub_0_r in C.
    rewrite nth_error_removelast by lia. assumption.
  Qed.

  Lemma ix_consecutive : forall iw, In iw (ti_wits ti) -> exists p,
    map tk_pos (iw_toks iw) = seq p (length (iw_toks iw)) /\ iw_toks iw <> [].
  Proof.
    intros iw H. rewrite (ix_wits _ _ IX) in H. destruct (stamped_toks _ _ _ H) as [p [w [A [B C]]]].
    exists p. rewrite C, stamp_pos, stamp_length. split; auto.
    pose proof (ix_nonempty _ _ IX) as N. rewrite Forall_forall in N. apply N in A.
    destruct (w_toks w); [congruence|discriminate].
  Qed.

  Lemma ix_sigla_nodup : NoDup (map iw_sigil (ti_wits ti)).
  Proof. rewrite (ix_wits _ _ IX), stamped_sigla. apply (ix_nodup _ _ IX). Qed.

  Lemma ix_range : forall iw, In iw (ti_wits ti) ->
    get_range_for_witness ti (iw_sigil iw) = Ok (map tk_pos (iw_toks iw)).
  Proof.
    intros iw H. unfold get_range_for_witness. rewrite (In_dget _ str_eqb_ok (iw_sigil iw) (map tk_pos (iw_toks iw))); auto.
    - rewrite (ix_ranges _ _ IX), map_map. simpl. rewrite stamped_sigla. apply (ix_nodup _ _ IX).
    - rewrite (ix_ranges _ _ IX). rewrite (ix_wits _ _ IX) in H. apply in_map_iff. exists iw. auto.
  Qed.

  Lemma ix_start : forall iw, In iw (ti_wits ti) -> exists p, start_token_position ti (iw_sigil iw) = Ok p /\
    map tk_pos (iw_toks iw) = seq p (length (iw_toks iw)) /\ iw_toks iw <> [].
  Proof.
    intros iw H. unfold start_token_position. rewrite (ix_range iw H).
    destruct (ix_consecutive iw H) as [p [A B]]. exists p. cbn [bind]. rewrite A. split; auto.
    destruct (iw_toks iw); [congruence|]. reflexivity.
  Qed.

  Lemma ix_tok_nth : forall iw p i, In iw (ti_wits ti) -> map tk_pos (iw_toks iw) = seq p (length (iw_toks iw)) ->
    i < length (iw_toks iw) -> exists t, nth_error (iw_toks iw) i = Some t /\ tk_pos t = p + i /\
      nth_error (ti_array ti) (p + i) = Some t.
  Proof.
    intros iw p i H E L. destruct (nth_error_lt_ex _ _ L) as [t Ht]. exists t. split; auto.
    assert (tk_pos t = p + i).
    { pose proof (f_equal (fun l => nth_error l i) E) as Q. cbv beta in Q. rewrite nth_error_map, Ht in Q. simpl in Q.
      rewrite nth_error_nth' with (d := 0) in Q by (rewrite seq_length; assumption).
      rewrite seq_nth in Q by assumption. congruence. }
    split; auto. rewrite <- H0. apply ix_nth with iw; auto. apply nth_error_In with i. assumption.
  Qed.

  Lemma ix_split : forall d1 iw d2, ti_wits ti = d1 ++ iw :: d2 ->
    (forall iw' t u, In iw' d1 -> In t (iw_toks iw') -> In u (iw_toks iw) -> tk_pos t < tk_pos u).
  Proof.
    intros d1 iw d2 E iw' t u H Ht Hu. pose proof (stamped_sorted c 0) as S. rewrite <- (ix_wits _ _ IX), E in S.
    clear E. induction d1 as [|a d1 IH]; [contradiction|]. simpl in S. apply StronglySorted_inv in S as [S F].
    destruct H as [->|H]; [|auto]. rewrite Forall_forall in F. apply (F iw); auto. apply in_or_app. right. left. reflexivity.
  Qed.

  Lemma ix_wit_unique : forall iw iw' t t', In iw (ti_wits ti) -> In iw' (ti_wits ti) -> In t (iw_toks iw) ->
    In t' (iw_toks iw') -> tk_pos t = tk_pos t' -> iw = iw' /\ t = t'.
  Proof.
    intros iw iw' t t' H H' Ht Ht' E. pose proof (ix_nth _ _ H Ht) as Q1. pose proof (ix_nth _ _ H' Ht') as Q2.
    rewrite E, Q2 in Q1. injection Q1 as <-. split; auto.
    pose proof (stamped_sorted c 0) as S. rewrite <- (ix_wits _ _ IX) in S. clear - H H' Ht Ht' S.
    induction (ti_wits ti) as [|a l IH]; [contradiction|].
    apply StronglySorted_inv in S as [S F]. rewrite Forall_forall in F.
    destruct H as [->|H], H' as [<-|H']; auto.
    - specialize (F iw' H' t' t' Ht Ht'). lia.
    - specialize (F iw H t' t' Ht' Ht). lia.
  Qed.
End Index.
