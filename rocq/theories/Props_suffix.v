(** Properties C12, C13 and C38: suffix array, LCP array, substring search. *)
From Verif Require Import Py Lib SuffixModel SuffixSpec RadixProof DC3Proof SuffixProof FindProof.

(** Construction never performs an out-of-range access, on any token sequence. *)
Theorem C12_construction_total : forall toks, exists sa, suffix_array toks = Ok sa.
Proof.
  intros toks. destruct (Nat.eq_dec (length toks) 1) as [E|E].
  - destruct toks as [|t [|? ?]]; try discriminate. eexists. apply suffix_array_one.
  - destruct (suffix_array_ok toks E) as [sa [H _]]. eauto.
Qed.

(** C12 for every sequence whose length is not one.  Missing: the length-one case,
    which is false of the code (next theorem). *)
Theorem C12_suffix_array_partial : forall toks sa, length toks <> 1 ->
  suffix_array toks = Ok sa -> is_suffix_array toks (sa_SA sa).
Proof.
  intros toks sa Hn H. destruct (suffix_array_ok toks Hn) as [sa' [E OK]]. rewrite E in H. inversion H; subst.
  split; [apply OK|]. intros i j p q Hij Hp Hq. apply slt_toks.
  eapply StronglySorted_nth_error; [apply OK|exact Hij|exact Hp|exact Hq].
Qed.

(** The one-token sequence gets the array [1], which is not even a position. *)
Theorem C12_suffix_array_refuted : exists toks sa, suffix_array toks = Ok sa /\ ~ is_suffix_array toks (sa_SA sa).
Proof.
  exists [lit "a"]. eexists. split; [reflexivity|]. intros [P _]. simpl in P.
  apply Permutation_length_1_inv in P. discriminate.
Qed.

(** The missing case in full: for every single token the position is 1, outside of the text. *)
Theorem C12_one_token_refuted : forall x sa, suffix_array [x] = Ok sa -> sa_SA sa = [1] /\ sa_LCP sa = [0] /\ ~ is_suffix_array [x] (sa_SA sa).
Proof.
  intros x sa H. rewrite suffix_array_one in H. injection H as <-. cbn [sa_SA sa_LCP]. split; [reflexivity|]. split; [reflexivity|].
  intros [P _]. simpl in P. apply Permutation_length_1_inv in P. discriminate.
Qed.
Print Assumptions C12_one_token_refuted.

Theorem C13_lcp_array : forall toks sa, suffix_array toks = Ok sa ->
  length (sa_LCP sa) = length toks /\
  (forall k, nth_error (sa_LCP sa) 0 = Some k -> k = 0) /\
  forall i p q, nth_error (sa_SA sa) i = Some p -> nth_error (sa_SA sa) (S i) = Some q ->
    exists k, nth_error (sa_LCP sa) (S i) = Some k /\ is_lcp (skipn p toks) (skipn q toks) k.
Proof.
  intros toks sa H. destruct (Nat.eq_dec (length toks) 1) as [E|E].
  - destruct toks as [|t [|? ?]]; try discriminate. rewrite suffix_array_one in H. inversion H; subst. simpl.
    split; [reflexivity|]. split; [intros k Hk; inversion Hk; reflexivity|]. intros i p q _ Hq. destruct i; discriminate.
  - destruct (suffix_array_ok toks E) as [sa' [E' OK]]. rewrite E' in H. inversion H; subst. clear H E'.
    split; [apply (LCP_length toks sa OK)|]. split.
    + intros k Hk. apply nth_error_nth with (d := 0) in Hk. rewrite <- Hk. apply (LCPn_0 toks sa OK).
    + intros i p q Hp Hq.
      assert (HS : S i < length toks) by (rewrite <- (SA_length toks sa OK); apply nth_error_Some; congruence).
      exists (LCPn sa (S i)). split; [apply nth_error_nth'; rewrite (LCP_length toks sa OK); assumption|].
      apply nth_error_nth with (d := 0) in Hp, Hq. fold (SAn sa i) in Hp. fold (SAn sa (S i)) in Hq.
      destruct (LCPn_spec toks sa OK i HS) as [A B]. rewrite Hp, Hq in A, B. set (k := LCPn sa (S i)) in *.
      pose proof (SAn_lt toks sa OK i) as B1. pose proof (SAn_lt toks sa OK (S i)) as B2.
      assert (NE : p <> q) by (intros ->; congruence).
      destruct (agree_bound toks p q k NE) as [C1 C2]; [lia|lia|assumption|].
      repeat split.
      * apply agree_firstn; assumption.
      * rewrite skipn_length. lia.
      * rewrite skipn_length. lia.
      * intros x y Hx Hy. rewrite nth_error_skipn in Hx, Hy. intros ->.
        apply B. rewrite (F_in toks (p + k) y Hx), (F_in toks (q + k) y Hy). reflexivity.
Qed.

(** C38 for every text whose length is not one.  Missing: texts of one token,
    for which it is false (next theorem). *)
Theorem C38_find_partial : forall toks sa sub, length toks <> 1 -> suffix_array toks = Ok sa ->
  exists l, find sa sub = Ok l /\ NoDup l /\ forall p, In p l <-> occurs_at sub toks p.
Proof.
  intros toks sa sub Hn H. destruct (suffix_array_ok toks Hn) as [sa' [E OK]]. rewrite E in H. inversion H; subst.
  apply find_spec. assumption.
Qed.

Theorem C38_find_refuted : exists toks sa sub p, suffix_array toks = Ok sa /\ occurs_at sub toks p /\
  exists l, find sa sub = Ok l /\ ~ In p l.
Proof.
  exists [lit "a"]. eexists. exists [lit "a"], 0. split; [reflexivity|]. split; [split; [simpl; lia|reflexivity]|].
  exists []. split; [reflexivity|]. intros [].
Qed.

(** In a text of one token nothing is ever found. *)
Theorem C38_one_token_refuted : forall x sa sub, suffix_array [x] = Ok sa -> sub <> [] -> find sa sub = Ok [].
Proof.
  intros x sa sub H N. rewrite suffix_array_one in H. injection H as <-. unfold find, find_one. cbn [sa_voc sa_string sa_SA sa_LCP length].
  destruct (mapM (tok_id [x]) sub) as [ids|e] eqn:E.
  - destruct ids as [|i ids]; [destruct sub; [congruence|]; cbn [mapM] in E; destruct (tok_id [x] s); [|discriminate]; destruct (mapM (tok_id [x]) sub); discriminate|].
    reflexivity.
  - assert (e = KeyError) as ->; [|reflexivity]. clear N. revert e E. induction sub as [|s sub IH]; intros e E; [discriminate|]. cbn [mapM] in E.
    unfold tok_id in E. destruct (index_of s [x]); cbn [bind] in E; [|injection E as <-; reflexivity].
    fold (tok_id [x]) in *. destruct (mapM (tok_id [x]) sub) eqn:E2; [discriminate|]. injection E as <-. apply IH. reflexivity.
Qed.
Print Assumptions C38_one_token_refuted.

(** Non-trivial instances: the hypotheses are met by ordinary texts. *)
Definition mississippi : list str := map (fun c => [c]) (lit "mississippi").
Example C12_example : exists sa, suffix_array mississippi = Ok sa /\ length mississippi <> 1 /\
  sa_SA sa = [10; 7; 4; 1; 0; 9; 8; 6; 3; 5; 2] /\ sa_LCP sa = [0; 1; 1; 4; 0; 0; 1; 0; 2; 1; 3].
Proof. eexists. split; [vm_compute; reflexivity|]. split; [discriminate|]. split; reflexivity. Qed.
Example C38_example : exists sa, suffix_array mississippi = Ok sa /\
  find sa (map (fun c => [c]) (lit "ssi")) = Ok [5; 2].
Proof. eexists. split; vm_compute; reflexivity. Qed.

Print Assumptions C12_construction_total.
Print Assumptions C12_suffix_array_partial.
Print Assumptions C12_suffix_array_refuted.
Print Assumptions C13_lcp_array.
Print Assumptions C38_find_partial.
Print Assumptions C38_find_refuted.
