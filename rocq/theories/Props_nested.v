(** The occurrences of blocks, nested and in order (C16). *)
From Verif Require Import Py Lib TokenModel SuffixModel IndexModel BlockModel SuffixSpec Samples
  RadixProof DC3Proof BlockProof SuffixProof IndexProof BlockText NestedProof Props_suffix.
From Coq Require Import Permutation.
Open Scope list_scope.
Open Scope nat_scope.
Notation strings ti := (map tk_str (ti_array ti)).

Lemma lex_asym : forall A (lt : A -> A -> Prop), (forall x y, lt x y -> lt y x -> False) -> (forall x, ~ lt x x) -> forall a b, lex lt a b -> lex lt b a -> False.
Proof.
  intros A lt AS IR a b H. induction H as [y b|x y a b L|x a b L IH]; intros K; inversion K; subst; eauto; try (eapply IR; eassumption).
Qed.
Lemma toks_asym : forall a b, toks_lt a b -> toks_lt b a -> False.
Proof.
  apply lex_asym; [|exact str_lt_irrefl]. apply lex_asym; [intros x y; lia|intros x; lia].
Qed.

Lemma row_order : forall toks sa r1 r2, sa_ok toks sa -> r1 < r2 -> r2 < length toks -> toks_lt (skipn (SAn sa r1) toks) (skipn (SAn sa r2) toks).
Proof.
  intros toks sa r1 r2 OK L B. apply slt_toks.
  assert (LN : length (sa_SA sa) = length toks) by (rewrite (Permutation_length (so_perm _ _ OK)), seq_length; reflexivity).
  eapply StronglySorted_nth_error; [apply OK|exact L| |]; apply nth_error_nth'; lia.
Qed.

(** ** C16: the occurrences of two blocks of one index are nested, or they have none in common. *)
Theorem C16_nested : forall c ti b1 b2 ps1 ps2, prepare c = Ok ti -> In b1 (ti_blocks ti) -> In b2 (ti_blocks ti) ->
  block_instances (ti_sa ti) b1 = Ok ps1 -> block_instances (ti_sa ti) b2 = Ok ps2 ->
  incl ps1 ps2 \/ incl ps2 ps1 \/ forall p, In p ps1 -> ~ In p ps2.
Proof.
  intros c ti b1 b2 ps1 ps2 H H1 H2 I1 I2. pose proof (prepare_text_ok c ti H) as OK.
  destruct (block_inst ti OK b1 H1) as [sa [S1 [S2 [S3 [_ [E1 J1]]]]]]. destruct (block_inst ti OK b2 H2) as [sa' [S1' [S2' [_ [_ [E2 J2]]]]]].
  rewrite I1 in J1. injection J1 as ->. rewrite I2 in J2. injection J2 as ->.
  assert (ES : forall r, SAn sa' r = SAn sa r) by (intros r; unfold SAn; congruence).
  assert (IN : forall s k p, In p (map (SAn sa) (seq s k)) <-> exists r, s <= r < s + k /\ p = SAn sa r).
  { intros s k p. rewrite in_map_iff. split; intros [r [Q1 Q2]]; exists r; [apply in_seq in Q2; auto|split; [auto|apply in_seq; auto]]. }
  rewrite (map_ext _ _ ES). pose proof (split_nested _ _ b1 b2 S3 H1 H2) as N. unfold apart_or_nested in N. destruct N as [N|[N|[N|N]]].
  - right. right. intros p P Q. apply IN in P as [r [R ->]]. apply IN in Q as [r' [R' Q]]. apply (SAn_inj _ _ S1) in Q; [lia|fold (text ti); lia|fold (text ti); lia].
  - right. right. intros p P Q. apply IN in P as [r [R ->]]. apply IN in Q as [r' [R' Q]]. apply (SAn_inj _ _ S1) in Q; [lia|fold (text ti); lia|fold (text ti); lia].
  - left. intros p P. apply IN in P as [r [R ->]]. apply IN. exists r. split; [lia|reflexivity].
  - right. left. intros p P. apply IN in P as [r [R ->]]. apply IN. exists r. split; [lia|reflexivity].
Qed.
Print Assumptions C16_nested.

(** Of two blocks the first is the lesser one exactly if the text from each of its occurrences comes before the text
    from each occurrence of the other, in the order of the words. *)
Theorem C16_order : forall c ti b1 b2 ps1 ps2, prepare c = Ok ti -> In b1 (ti_blocks ti) -> In b2 (ti_blocks ti) ->
  block_instances (ti_sa ti) b1 = Ok ps1 -> block_instances (ti_sa ti) b2 = Ok ps2 ->
  block_lt b1 b2 = true <-> forall p q, In p ps1 -> In q ps2 -> toks_lt (skipn p (strings ti)) (skipn q (strings ti)).
Proof.
  intros c ti b1 b2 ps1 ps2 H H1 H2 I1 I2. pose proof (prepare_text_ok c ti H) as OK.
  destruct (block_inst ti OK b1 H1) as [sa [S1 [S2 [S3 [B1 [E1 J1]]]]]]. destruct (block_inst ti OK b2 H2) as [sa' [S1' [S2' [_ [B2 [E2 J2]]]]]].
  rewrite I1 in J1. injection J1 as ->. rewrite I2 in J2. injection J2 as ->.
  assert (ES : forall r, SAn sa' r = SAn sa r) by (intros r; unfold SAn; congruence).
  assert (IN : forall s k p, In p (map (SAn sa) (seq s k)) <-> exists r, s <= r < s + k /\ p = SAn sa r).
  { intros s k p. rewrite in_map_iff. split; intros [r [Q1 Q2]]; exists r; [apply in_seq in Q2; auto|split; [auto|apply in_seq; auto]]. }
  rewrite (map_ext _ _ ES). pose proof (split_nested _ _ b1 b2 S3 H1 H2) as N. unfold apart_or_nested in N. unfold block_lt. rewrite andb_true_iff, !Nat.ltb_lt.
  assert (L1 : b_start b1 < b_end b1) by (destruct B1 as [_ [Q _]]; exact Q). assert (L2 : b_start b2 < b_end b2) by (destruct B2 as [_ [Q _]]; exact Q).
  fold (text ti) in *. split.
  - intros [Q1 Q2] p q P Q. apply IN in P as [r [R ->]]. apply IN in Q as [r' [R' ->]]. apply row_order; [exact S1|lia|lia].
  - intros Q. assert (A : SAn sa (b_start b1) <> SAn sa (b_start b2) /\ b_end b1 < b_start b2 \/ b_end b2 < b_start b1 \/ exists r, b_start b1 <= r <= b_end b1 /\ b_start b2 <= r <= b_end b2).
    { destruct N as [N|[N|[N|N]]]; [left|right; left; exact N|right; right; exists (b_start b1); lia|right; right; exists (b_start b2); lia].
      split; [|exact N]. intros E. apply (SAn_inj _ _ S1) in E; fold (text ti); lia. }
    destruct A as [[_ A]|[A|[r [R1 R2]]]]; [lia| |].
    + exfalso. apply (toks_asym (skipn (SAn sa (b_start b1)) (text ti)) (skipn (SAn sa (b_start b2)) (text ti))).
      * apply Q; apply IN; [exists (b_start b1)|exists (b_start b2)]; (split; [lia|reflexivity]).
      * apply row_order; [exact S1|lia|lia].
    + exfalso. assert (K : toks_lt (skipn (SAn sa r) (text ti)) (skipn (SAn sa r) (text ti))) by (apply Q; apply IN; exists r; (split; [lia|reflexivity])).
      exact (toks_asym _ _ K K).
Qed.
Print Assumptions C16_order.

(** Two witnesses: the occurrences of "the black dog" are among those of "the black"; a block of an earlier word is less. *)
Definition b_long : block := {| b_start := 11; b_end := 12; b_len := 3 |}.
Definition b_short : block := {| b_start := 10; b_end := 12; b_len := 2 |}.
Definition b_early : block := {| b_start := 1; b_end := 2; b_len := 2 |}.
Example C16_nested_example : exists ti, prepare two_witnesses = Ok ti /\ In b_long (ti_blocks ti) /\ In b_short (ti_blocks ti) /\ In b_early (ti_blocks ti) /\
  (exists ps, block_instances (ti_sa ti) b_long = Ok ps) /\ (exists ps, block_instances (ti_sa ti) b_short = Ok ps) /\
  block_lt b_early b_short = true /\ block_lt b_long b_short = false /\ block_lt b_short b_long = false.
Proof.
  destruct (prepare two_witnesses) as [ti|] eqn:E; [|exfalso; vm_compute in E; discriminate].
  exists ti. split; [reflexivity|]. vm_compute in E. injection E as <-. split; [cbn; tauto|]. split; [cbn; tauto|]. split; [cbn; tauto|].
  split; [eexists; vm_compute; reflexivity|]. split; [eexists; vm_compute; reflexivity|]. split; [reflexivity|]. split; reflexivity.
Qed.
