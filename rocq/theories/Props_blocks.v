(** Properties C14, C15, C16 and C41: blocks of repeated text. *)
From Verif Require Import Py Lib TokenModel SuffixModel IndexModel SuffixSpec Samples
  BlockProof SuffixProof IndexProof BlockText.
Open Scope list_scope.
Open Scope nat_scope.

(** The strings in the token array of an index. *)
Notation strings ti := (map tk_str (ti_array ti)).

Theorem C14_blocks_sound : forall c ti b, prepare c = Ok ti -> In b (ti_blocks ti) ->
  exists ps, block_instances (ti_sa ti) b = Ok ps /\ 2 <= length ps /\ NoDup ps /\ 0 < b_len b /\
    forall p q, In p ps -> In q ps ->
      p + b_len b <= length (strings ti) /\
      firstn (b_len b) (skipn p (strings ti)) = firstn (b_len b) (skipn q (strings ti)).
Proof.
  intros c ti b H Hb. destruct (block_sound ti (prepare_text_ok c ti H) b Hb) as [ps [A [B [C [D [_ E]]]]]].
  exists ps. auto.
Qed.

(** The common text of a block cannot be prolonged for all its instances. *)
Theorem C14_blocks_maximal : forall c ti b, prepare c = Ok ti -> In b (ti_blocks ti) ->
  exists ps p q, block_instances (ti_sa ti) b = Ok ps /\ In p ps /\ In q ps /\
    is_lcp (skipn p (strings ti)) (skipn q (strings ti)) (b_len b).
Proof. intros c ti b H Hb. apply (block_maximal ti (prepare_text_ok c ti H) b Hb). Qed.

Theorem C15_blocks_complete : forall c ti p q k, prepare c = Ok ti -> p <> q -> 0 < k ->
  is_lcp (skipn p (strings ti)) (skipn q (strings ti)) k ->
  exists b ps, In b (ti_blocks ti) /\ b_len b = k /\ block_instances (ti_sa ti) b = Ok ps /\ In p ps /\ In q ps.
Proof. intros c ti p q k H. apply (block_complete ti (prepare_text_ok c ti H)). Qed.

(** C16, the part that holds: the frequency is the number of instances of the block,
    and among the blocks with its text there is one whose instances are all the
    occurrences of that text.  Missing: every block has all occurrences, and no two
    blocks have the same text; both are false (next theorem). *)
Theorem C16_frequency_partial : forall c ti b ps p, prepare c = Ok ti -> In b (ti_blocks ti) ->
  block_instances (ti_sa ti) b = Ok ps -> In p ps ->
  block_frequency b = length ps /\
  exists b' ps', In b' (ti_blocks ti) /\ b_len b' = b_len b /\ block_instances (ti_sa ti) b' = Ok ps' /\
    block_frequency b' = length ps' /\
    (forall q, In q ps' <-> occurs_at (firstn (b_len b) (skipn p (strings ti))) (strings ti) q).
Proof.
  intros c ti b ps p H Hb Hps Hp. pose proof (prepare_text_ok c ti H) as OK.
  destruct (block_sound ti OK b Hb) as [ps0 [A [_ [_ [_ [L _]]]]]]. rewrite Hps in A. injection A as <-.
  split; [congruence|].
  destruct (block_all_occurrences ti OK b ps p Hb Hps Hp) as [b' [ps' [B1 [B2 [B3 [B4 _]]]]]].
  exists b', ps'. destruct (block_sound ti OK b' B1) as [ps0 [A [_ [_ [_ [L' _]]]]]]. rewrite B3 in A. injection A as <-.
  split; [exact B1|]. split; [exact B2|]. split; [exact B3|]. split; [congruence|]. exact B4.
Qed.

(** In the text "a b a c d a c e a f" two blocks stand for the text "a": one of them
    has frequency 3, although the text occurs four times. *)
Theorem C16_frequency_refuted : exists c ti b1 b2 ps1 ps2 p q,
  prepare c = Ok ti /\ In b1 (ti_blocks ti) /\ In b2 (ti_blocks ti) /\
  block_instances (ti_sa ti) b1 = Ok ps1 /\ block_instances (ti_sa ti) b2 = Ok ps2 /\
  b1 <> b2 /\ b_len b1 = b_len b2 /\ In p ps1 /\ In p ps2 /\
  block_frequency b1 < block_frequency b2 /\
  occurs_at (firstn (b_len b1) (skipn p (strings ti))) (strings ti) q /\ ~ In q ps1.
Proof.
  exists repetitive.
  destruct (prepare repetitive) as [ti|] eqn:E; [|exfalso; vm_compute in E; discriminate].
  exists ti, {| b_start := 1; b_end := 3; b_len := 1 |}, {| b_start := 0; b_end := 3; b_len := 1 |}.
  vm_compute in E. injection E as <-.
  exists [2; 5; 8], [0; 2; 5; 8], 2, 0.
  split; [reflexivity|]. repeat split; try (vm_compute; tauto); try (vm_compute; lia); try discriminate;
    simpl; intuition discriminate.
Qed.

(** C41, the part that holds: one range per occurrence except the last one, each of the
    length of the block.  Missing: the last occurrence (next theorem). *)
Theorem C41_ranges_partial : forall c ti b, prepare c = Ok ti -> In b (ti_blocks ti) ->
  exists ps, block_instances (ti_sa ti) b = Ok ps /\
    block_ranges (ti_sa ti) b = Ok (map (fun p => (p, p + b_len b)) (removelast ps)).
Proof.
  intros c ti b H Hb. destruct (block_inst ti (prepare_text_ok c ti H) b Hb) as [sa [S1 [S2 [_ [[_ [B _]] [be BI]]]]]].
  eexists. split; [exact BI|]. unfold block_ranges.
  rewrite (mapM_ok _ (SAn sa)).
  - cbn [bind]. do 2 f_equal. replace (b_end b + 1 - b_start b) with (S (b_end b - b_start b)) by lia.
    rewrite seq_S, map_app. cbn [map]. rewrite removelast_last. reflexivity.
  - intros r Hr. apply in_seq in Hr. rewrite S2. apply (aget_SA _ _ S1). lia.
Qed.

(** The occurrence that is missing exists for every block. *)
Theorem C41_ranges_refuted : exists c ti b ps p, prepare c = Ok ti /\ In b (ti_blocks ti) /\
  block_instances (ti_sa ti) b = Ok ps /\ In p ps /\
  exists rs, block_ranges (ti_sa ti) b = Ok rs /\ ~ In (p, p + b_len b) rs /\ length rs < length ps.
Proof.
  exists repetitive.
  destruct (prepare repetitive) as [ti|] eqn:E; [|exfalso; vm_compute in E; discriminate].
  exists ti, {| b_start := 0; b_end := 3; b_len := 1 |}.
  vm_compute in E. injection E as <-.
  exists [0; 2; 5; 8], 8. split; [reflexivity|]. split; [vm_compute; tauto|]. split; [reflexivity|].
  split; [simpl; tauto|]. exists [(0, 1); (2, 3); (5, 6)]. split; [reflexivity|].
  split; [simpl; intuition discriminate|simpl; lia].
Qed.

(** The hypotheses are met: two witnesses share the block "the black" (three
    occurrences) and "the black dog" (two). *)
Example C14_example : exists ti, prepare two_witnesses = Ok ti /\
  In {| b_start := 10; b_end := 12; b_len := 2 |} (ti_blocks ti) /\
  block_instances (ti_sa ti) {| b_start := 10; b_end := 12; b_len := 2 |} = Ok [0; 4; 8].
Proof.
  destruct (prepare two_witnesses) as [ti|] eqn:E; [|exfalso; vm_compute in E; discriminate].
  exists ti. vm_compute in E. injection E as <-. repeat split; vm_compute; tauto.
Qed.
Example C15_example : exists ti, prepare two_witnesses = Ok ti /\
  is_lcp (skipn 4 (strings ti)) (skipn 8 (strings ti)) 3.
Proof.
  destruct (prepare two_witnesses) as [ti|] eqn:E; [|exfalso; vm_compute in E; discriminate].
  exists ti. vm_compute in E. injection E as <-. split; [reflexivity|].
  repeat split; try (vm_compute; lia). intros x y Hx Hy. vm_compute in Hx, Hy. congruence.
Qed.

Print Assumptions C14_blocks_sound.
Print Assumptions C14_blocks_maximal.
Print Assumptions C15_blocks_complete.
Print Assumptions C16_frequency_partial.
Print Assumptions C16_frequency_refuted.
Print Assumptions C41_ranges_partial.
Print Assumptions C41_ranges_refuted.
