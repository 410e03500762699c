(** Property C103: long texts in suffix arrays. *)
From Verif Require Import Py Lib SuffixModel SuffixSpec DC3Proof SuffixProof SuffixDepthModel.
From Coq Require Import List Lia Arith.
Import ListNotations.

Lemma dc3_more : forall f s SA n K r, dc3 f s SA n K = Ok r -> forall f', f <= f' -> dc3 f' s SA n K = Ok r.
Proof.
  induction f as [|f IH]; intros s SA n K r H f' L; [discriminate|]. destruct f' as [|f']; [lia|]. cbn [dc3] in H |- *.
  destruct (radixPass _ (repeat 0 _) (skipn 2 s) _ K) as [a|]; cbn [bind] in H |- *; [|discriminate].
  destruct (radixPass a _ (skipn 1 s) _ K) as [b|]; cbn [bind] in H |- *; [|discriminate].
  destruct (radixPass b a s _ K) as [c|]; cbn [bind] in H |- *; [|discriminate].
  destruct (foldM (name_step s _ c) _ _) as [[[name o] s12]|]; cbn [bind] in H |- *; [|discriminate].
  destruct (name <? _); [|exact H].
  destruct (dc3 f s12 c _ (name + 1)) as [d|] eqn:E; cbn [bind] in H; [|discriminate]. rewrite (IH _ _ _ _ _ E f') by lia. exact H.
Qed.

(** ** C103.  A text of fewer than 2 + (3/2)^d tokens is sorted with at most d + 1 activations open. *)
Theorem C103_depth : forall d toks, 2 ^ d * (length toks - 2) < 3 ^ d -> suffix_array_within (S d) toks = suffix_array toks.
Proof.
  intros d toks H. unfold suffix_array_within, suffix_array. rewrite ids_ok. cbn [bind]. set (ids := map (ident (sorted_set toks)) toks).
  assert (LI : length ids = length toks) by apply map_length.
  destruct (le_lt_dec 2 (length toks)) as [G|G].
  - destruct (dc3_deep (S d) (ids ++ repeat 0 3) (repeat 0 (length toks + 3)) (length toks) (S (length (sorted_set toks)))) as [L [E _]].
    + assumption.
    + lia.
    + rewrite Nat.sub_succ, Nat.sub_0_r. assumption.
    + rewrite app_length, repeat_length. lia.
    + apply F_bounded.
    + apply F_le.
    + rewrite repeat_length. lia.
    + pose proof (dc3_more _ _ _ _ _ _ E) as M. destruct (le_lt_dec (S d) (S (length toks))) as [Q|Q]; [rewrite (M _ Q), E; reflexivity|].
      destruct (dc3_spec (S (length toks)) (ids ++ repeat 0 3) (repeat 0 (length toks + 3)) (length toks) (S (length (sorted_set toks)))) as [L' [E' _]]; try assumption; try lia.
      * rewrite app_length, repeat_length. lia.
      * apply F_bounded.
      * apply F_le.
      * rewrite repeat_length. lia.
      * rewrite E', (dc3_more _ _ _ _ _ _ E' (S d)) by lia. reflexivity.
  - destruct toks as [|t [|t' toks]]; [reflexivity| |cbn in G; lia]. cbn in ids. subst ids. unfold ident. cbn [sorted_set fold_right insert_set index_of]. rewrite str_eqb_refl. reflexivity.
Qed.
Print Assumptions C103_depth.

(** In particular: every text of up to 10^n tokens with [6 n + 1] activations; Python allows 1000, and
    so texts of 10^160 tokens. *)
Theorem C103_size : forall n toks, length toks <= 10 ^ n -> suffix_array_within (6 * n + 1) toks = suffix_array toks.
Proof.
  intros n toks H. rewrite Nat.add_1_r. apply C103_depth.
  assert (G : 2 ^ (6 * n) * 10 ^ n <= 3 ^ (6 * n)).
  { rewrite !Nat.pow_mul_r, <- Nat.pow_mul_l. apply Nat.pow_le_mono_l. apply Nat.leb_le. vm_compute. reflexivity. }
  assert (P : 0 < 2 ^ (6 * n)) by (apply Nat.neq_0_lt_0, Nat.pow_nonzero; lia).
  assert (P3 : 0 < 3 ^ (6 * n)) by (apply Nat.neq_0_lt_0, Nat.pow_nonzero; lia).
  destruct (length toks) as [|k] eqn:E; [rewrite Nat.mul_0_r; exact P3|]. generalize dependent (2 ^ (6 * n)). generalize dependent (3 ^ (6 * n)). generalize dependent (10 ^ n). intros a Ha b Hb c Hc Hp.
  destruct (le_lt_dec k 1) as [L|L]; [replace (S k - 2) with 0 by lia; lia|]. assert (c * (S k - 2) < c * a) by (apply Nat.mul_lt_mono_pos_l; lia). lia.
Qed.
Print Assumptions C103_size.

(** A text of fewer than 2^k tokens is searched by looking at no more than [k] of its suffixes, whatever the
    suffix array holds. *)
Theorem C103_search : forall k sa sub, length (sa_string sa) < 2 ^ k -> find_one_within k sa sub = find_one sa sub.
Proof.
  intros k sa sub H. unfold find_one_within, find_one. destruct (mapM _ sub) as [ids|]; [|reflexivity]. 
  assert (G : forall f1 f2 lo up, up - lo < 2 ^ f1 -> up - lo <= f2 -> find_one_loop f1 (sa_string sa) (sa_SA sa) ids lo up = find_one_loop f2 (sa_string sa) (sa_SA sa) ids lo up).
  { induction f1 as [|f1 IH]; intros f2 lo up H1 H2.
    - cbn in H1. destruct f2; cbn [find_one_loop]; (replace (lo <? up) with false by (symmetry; apply Nat.ltb_ge; lia)); reflexivity.
    - cbn [Nat.pow] in H1. destruct f2 as [|f2]; cbn [find_one_loop].
      + replace (lo <? up) with false by (symmetry; apply Nat.ltb_ge; lia). reflexivity.
      + destruct (Nat.ltb_spec lo up) as [L|L]; [|reflexivity]. set (m := (lo + up) / 2).
        assert (M : lo <= m < up /\ 2 * m <= lo + up /\ lo + up <= 2 * m + 1).
        { unfold m. pose proof (Nat.div_mod (lo + up) 2 ltac:(lia)). pose proof (Nat.mod_upper_bound (lo + up) 2 ltac:(lia)). lia. }
        destruct (aget (sa_SA sa) m) as [p|]; cbn [bind]; [|reflexivity]. destruct (nats_ltb ids _); [apply IH; lia|]. destruct (nats_ltb _ ids); [apply IH; lia|reflexivity]. }
  apply G; lia.
Qed.
Print Assumptions C103_search.

(** Eleven tokens: seven activations are enough by the theorem, and one is not. *)
Example C103_example : let toks := map (fun c => [c]) (lit "mississippi") in
  2 ^ 6 * (length toks - 2) < 3 ^ 6 /\ length toks < 2 ^ 4 /\
  suffix_array_within 7 toks = suffix_array toks /\ suffix_array_within 1 toks = Raise OutOfFuel /\
  exists sa, suffix_array toks = Ok sa /\ sa_SA sa = [10; 7; 4; 1; 0; 9; 8; 6; 3; 5; 2] /\ find_one_within 4 sa [lit "p"] = Ok (Some 5) /\ find_one_within 4 sa [lit "p"; lit "p"] = Ok (Some 6).
Proof.
  split; [apply Nat.ltb_lt; vm_compute; reflexivity|]. split; [apply Nat.ltb_lt; vm_compute; reflexivity|]. split; [vm_compute; reflexivity|]. split; [vm_compute; reflexivity|]. eexists. split; [vm_compute; reflexivity|]. vm_compute. auto.
Qed.
