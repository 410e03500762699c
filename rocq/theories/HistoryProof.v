(** A user's session with one Collation object: adding witnesses and collating (C33). *)
From Verif Require Import Py TokenModel SuffixModel IndexModel GraphModel AlignModel TableModel NearModel ExportModel
  CollateModel Lib CollateSpec HistorySpec.
From Coq Require Import QArith.
Open Scope list_scope.
Open Scope nat_scope.

Lemma dset_id : forall {V} k (v : V) d, dget str_eqb k d = Some v -> dset str_eqb k v d = d.
Proof.
  intros V k v d. induction d as [|[k' v'] d IH]; cbn [dget dset]; intros H; [discriminate|].
  destruct (str_eqb k k') eqn:E; [injection H as ->; apply str_eqb_ok in E; subst; reflexivity|]. rewrite (IH H). reflexivity.
Qed.

Lemma stamp_twice : forall sg ts pos, stamp sg pos (map (fun t => {| t0_str := tk_str t; t0_data := tk_data t |}) (stamp sg pos ts)) = stamp sg pos ts.
Proof.
  intros sg ts. induction ts as [|t ts IH]; intros pos; [reflexivity|]. cbn [stamp map tk_str tk_data t0_str t0_data]. rewrite IH. f_equal. f_equal.
  rewrite (dset_id k_sigil (JStr sg)).
  - apply dset_id. apply (dget_set_same _ str_eqb_ok).
  - rewrite (dget_set_other _ str_eqb_ok) by discriminate. apply (dget_set_same _ str_eqb_ok).
Qed.

Lemma stamp_length : forall sg ts pos, length (stamp sg pos ts) = length ts.
Proof. induction ts as [|t ts IH]; intros pos; [reflexivity|]. cbn [stamp length]. rewrite IH. reflexivity. Qed.

(** Two collations that look the same to the aligner. *)
Inductive agree : nat -> collation -> collation -> Prop :=
| agree_nil : forall pos, agree pos [] []
| agree_cons : forall pos w w' c c', w_sigil w' = w_sigil w -> length (w_toks w') = length (w_toks w) ->
    stamp (w_sigil w) pos (w_toks w') = stamp (w_sigil w) pos (w_toks w) ->
    agree (pos + length (w_toks w) + 1) c c' -> agree pos (w :: c) (w' :: c').

Lemma agree_refl : forall c pos, agree pos c c.
Proof. induction c as [|w c IH]; intros pos; constructor; auto. Qed.

Lemma agree_trans : forall c1 c2 c3 pos, agree pos c1 c2 -> agree pos c2 c3 -> agree pos c1 c3.
Proof.
  intros c1 c2 c3 pos H. revert c3. induction H as [pos|pos w w' c c' E1 E2 E3 H IH]; intros c3 H3; inversion H3 as [|? ? w2 ? c2 F1 F2 F3 F4]; subst; constructor; try congruence.
  apply IH. rewrite E2 in F4. exact F4.
Qed.

Lemma agree_app : forall c1 c2 c3 pos, agree pos c1 c2 -> agree pos (c1 ++ c3) (c2 ++ c3).
Proof. intros c1 c2 c3 pos H. induction H; cbn [app]; [apply agree_refl|constructor; auto]. Qed.

Lemma agree_after : forall c pos, agree pos c (collation_after pos c).
Proof.
  induction c as [|w c IH]; intros pos; [constructor|]. cbn [collation_after]. destruct (length (w_toks w) =? 0); [apply agree_refl|].
  constructor; cbn [restamp w_sigil w_toks]; [reflexivity|rewrite map_length; apply stamp_length|apply stamp_twice|apply IH].
Qed.

Lemma agree_sigla : forall c c' pos, agree pos c c' -> map w_sigil c' = map w_sigil c.
Proof. intros c c' pos H. induction H; cbn [map]; [reflexivity|congruence]. Qed.

Lemma agree_loop : forall c c' tap, agree tap c c' -> forall idx counter ranges arr out,
  prepare_loop c' idx counter tap ranges arr out = prepare_loop c idx counter tap ranges arr out.
Proof.
  intros c c' tap H. induction H as [pos|pos w w' c c' E1 E2 E3 H IH]; intros; cbn [prepare_loop]; [reflexivity|].
  rewrite E1, E2, E3. destruct (range_of counter (counter + length (w_toks w))); cbn [bind]; [apply IH|reflexivity].
Qed.

Section History.
  Variables (cc : cclass) (topo : graph -> res (list vid)) (ratio : str -> str -> Q).

  Lemma agree_collate : forall c c' o, agree 0 c c' -> collate cc topo ratio c' o = collate cc topo ratio c o.
  Proof.
    intros c c' o H. assert (P : prepare_array c' = prepare_array c) by (unfold prepare_array; rewrite (agree_loop c c' 0 H); reflexivity).
    assert (G : collate_graph cc topo ratio c' o = collate_graph cc topo ratio c o).
    { unfold collate_graph, aligner_collate, prepare. rewrite P. reflexivity. }
    unfold collate. rewrite G. unfold render. rewrite (agree_sigla c c' 0 H). reflexivity.
  Qed.

  Lemma agree_effect : forall c o, agree 0 c (collate_effect c o).
  Proof. intros c o. unfold collate_effect. destruct (o_astar o); [apply agree_refl|apply agree_after]. Qed.

  Lemma agree_add : forall c c' d, agree 0 c c' -> agree 0 (after_call cc c (AddWitness d)) (after_call cc c' (AddWitness d)).
  Proof. intros c c' d H. cbn [after_call]. unfold add_witness. destruct (witness_init cc d); cbn [bind]; [apply agree_app|]; exact H. Qed.

  Lemma agree_plain : forall c c' s t, agree 0 c c' -> agree 0 (after_call cc c (AddPlain s t)) (after_call cc c' (AddPlain s t)).
  Proof. intros c c' s t H. exact (agree_add c c' [(lit "id", JStr s); (lit "content", JStr t)] H). Qed.

  Theorem session_fresh : forall h done c, agree 0 (after_session cc done) c ->
    answers cc topo ratio c h = fresh_answers cc topo ratio done h.
  Proof.
    induction h as [|x h IH]; intros done c H; [reflexivity|]. cbn [answers fresh_answers]. destruct x as [d|s t|o].
    - apply IH. unfold after_session. rewrite fold_left_app. apply (agree_add _ _ d H).
    - apply IH. unfold after_session. rewrite fold_left_app. apply (agree_plain _ _ s t H).
    - f_equal; [apply agree_collate; exact H|]. apply IH. apply agree_trans with c; [exact H|apply agree_effect].
  Qed.
End History.

(** ** What collating changes in the caller's tokens *)
Lemma stamp_data : forall sg ts pos, Forall2 (fun t0 t => tk_str t = t0_str t0 /\
  forall k, k <> k_sigil -> k <> k_pos -> dget str_eqb k (tk_data t) = dget str_eqb k (t0_data t0)) ts (stamp sg pos ts).
Proof.
  intros sg ts. induction ts as [|t ts IH]; intros pos; [constructor|]. cbn [stamp]. constructor; [|apply IH]. cbn [tk_str tk_data]. split; [reflexivity|].
  intros k N1 N2. rewrite !(dget_set_other _ str_eqb_ok) by congruence. reflexivity.
Qed.

Lemma same_but_marks_refl : forall w, same_but_marks w w.
Proof. intros w. split; [reflexivity|]. induction (w_toks w); constructor; auto. Qed.

Theorem effect_small : forall c o, Forall2 same_but_marks c (collate_effect c o).
Proof.
  intros c o. unfold collate_effect. assert (R : forall c, Forall2 same_but_marks c c) by (induction c0; constructor; [apply same_but_marks_refl|assumption]).
  destruct (o_astar o); [apply R|]. generalize 0. induction c as [|w c IH]; intros pos; [constructor|]. cbn [collation_after].
  destruct (length (w_toks w) =? 0); [apply R|]. constructor; [|apply IH]. split; [reflexivity|]. cbn [restamp w_toks].
  pose proof (stamp_data (w_sigil w) (w_toks w) pos) as F. induction F as [|t t' l l' [A B] F IHF]; cbn [map]; constructor; [|assumption].
  cbn [t0_str t0_data]. split; assumption.
Qed.
