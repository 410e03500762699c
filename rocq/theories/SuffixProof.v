(** Proofs about SuffixArray.__init__, the LCP array and find. *)
From Verif Require Import Py Lib SuffixModel SuffixSpec RadixProof DC3Proof.

(** ** Orders *)
Lemma str_ltb_ok : forall a b, str_ltb a b = true <-> str_lt a b.
Proof.
  induction a as [|x a IH]; destruct b as [|y b]; simpl; split; intros H; try discriminate; try (inversion H; fail).
  - constructor.
  - reflexivity.
  - destruct (N.ltb_spec x y); [apply lex_head; assumption|].
    destruct (N.eqb_spec x y); [|discriminate]. subst. apply lex_tail. apply IH. assumption.
  - inversion H; subst.
    + destruct (N.ltb_spec x y); [reflexivity|lia].
    + destruct (N.ltb_spec y y); [reflexivity|]. rewrite N.eqb_refl. apply IH. assumption.
Qed.

Lemma str_lt_irrefl : forall a, ~ str_lt a a.
Proof. induction a; intros H; inversion H; subst; [lia|auto]. Qed.

Lemma str_lt_trans : forall a b c, str_lt a b -> str_lt b c -> str_lt a c.
Proof.
  induction a as [|x a IH]; intros b c H1 H2; inversion H1; subst; inversion H2; subst;
    try (constructor; fail); try (apply lex_head; lia); try (apply lex_head; assumption).
  apply lex_tail. eapply IH; eauto.
Qed.

Lemma str_lt_total : forall a b, a = b \/ str_lt a b \/ str_lt b a.
Proof.
  induction a as [|x a IH]; destruct b as [|y b]; auto.
  - right. left. constructor.
  - right. right. constructor.
  - destruct (N.lt_trichotomy x y) as [H|[H|H]].
    + right. left. apply lex_head. assumption.
    + subst. destruct (IH b) as [->|[H|H]]; auto.
      * right. left. apply lex_tail. assumption.
      * right. right. apply lex_tail. assumption.
    + right. right. apply lex_head. assumption.
Qed.

(** ** Vocabulary *)
Lemma insert_set_In : forall x l y, In y (insert_set x l) <-> y = x \/ In y l.
Proof.
  induction l as [|z l IH]; simpl; intros y; [intuition|].
  destruct (str_eqb x z) eqn:E.
  - apply str_eqb_ok in E. subst. simpl. intuition.
  - destruct (str_ltb x z); simpl; [intuition|]. rewrite IH. intuition.
Qed.

Lemma insert_set_sorted : forall x l, StronglySorted str_lt l -> StronglySorted str_lt (insert_set x l).
Proof.
  induction l as [|z l IH]; intros H; simpl; [repeat constructor|].
  destruct (str_eqb x z) eqn:E; [assumption|]. apply str_eqb_neq in E.
  apply StronglySorted_inv in H as [H1 H2].
  destruct (str_ltb x z) eqn:L.
  - apply str_ltb_ok in L. constructor; [constructor; assumption|]. constructor; [assumption|].
    rewrite Forall_forall in *. intros y Hy. eapply str_lt_trans; eauto.
  - constructor; [apply IH; assumption|]. rewrite Forall_forall in *. intros y Hy.
    apply insert_set_In in Hy as [->|Hy]; auto. destruct (str_lt_total x z) as [?|[Q|?]]; [contradiction| |assumption].
    apply str_ltb_ok in Q. congruence.
Qed.

Lemma sorted_set_sorted : forall l, StronglySorted str_lt (sorted_set l).
Proof. induction l; simpl; [constructor|]. apply insert_set_sorted. assumption. Qed.

Lemma sorted_set_In : forall l y, In y (sorted_set l) <-> In y l.
Proof. induction l; simpl; intros y; [tauto|]. rewrite insert_set_In, IHl. intuition. Qed.

Lemma index_of_Some : forall x l i, index_of x l = Some i -> nth_error l i = Some x.
Proof.
  induction l as [|y l IH]; simpl; intros i H; [discriminate|].
  destruct (str_eqb x y) eqn:E.
  - apply str_eqb_ok in E. inversion H; subst. reflexivity.
  - destruct (index_of x l); inversion H; subst. simpl. apply IH. reflexivity.
Qed.

Lemma index_of_In : forall x l, In x l -> exists i, index_of x l = Some i.
Proof.
  induction l as [|y l IH]; simpl; intros H; [destruct H|].
  destruct (str_eqb x y) eqn:E; [eauto|]. apply str_eqb_neq in E.
  destruct H as [H|H]; [congruence|]. destruct (IH H) as [i ->]. eauto.
Qed.

Lemma StronglySorted_nth_error : forall {A} (R : A -> A -> Prop) l i j x y, StronglySorted R l -> i < j ->
  nth_error l i = Some x -> nth_error l j = Some y -> R x y.
Proof.
  induction l as [|a l IH]; intros i j x y HS Hij Hi Hj; [destruct i; discriminate|].
  apply StronglySorted_inv in HS as [S1 S2]. destruct i; destruct j; try lia; simpl in *.
  - inversion Hi; subst. rewrite Forall_forall in S2. apply S2. eapply nth_error_In; eauto.
  - apply (IH i j); auto. lia.
Qed.

(** identifier of a token *)
Definition ident (voc : list str) (t : str) : nat := match index_of t voc with Some i => S i | None => 0 end.

Section Ids.
  Variable toks : list str.
  Let voc := sorted_set toks.
  Let ids := map (ident voc) toks.
  Let n := length toks.

  Lemma tok_id_ok : forall t, In t toks -> tok_id voc t = Ok (ident voc t).
  Proof.
    intros t H. unfold tok_id, ident. destruct (index_of_In t voc) as [i ->]; [apply sorted_set_In; assumption|]. reflexivity.
  Qed.

  Lemma ids_ok : mapM (tok_id voc) toks = Ok ids.
  Proof. apply mapM_ok. intros. apply tok_id_ok. assumption. Qed.

  Lemma ident_lt : forall a b, In a toks -> In b toks -> (ident voc a < ident voc b <-> str_lt a b).
  Proof.
    intros a b Ha Hb. unfold ident.
    destruct (index_of_In a voc) as [i Ei]; [apply sorted_set_In; assumption|].
    destruct (index_of_In b voc) as [j Ej]; [apply sorted_set_In; assumption|]. rewrite Ei, Ej.
    apply index_of_Some in Ei, Ej. pose proof (sorted_set_sorted toks) as SS. fold voc in SS.
    split; intros H.
    - eapply StronglySorted_nth_error; [exact SS| |exact Ei|exact Ej]. lia.
    - destruct (lt_eq_lt_dec i j) as [[C|C]|C]; [lia| |]; exfalso.
      + subst. rewrite Ei in Ej. inversion Ej; subst. eapply str_lt_irrefl; eauto.
      + assert (str_lt b a) by (eapply StronglySorted_nth_error; [exact SS| |exact Ej|exact Ei]; lia).
        eapply str_lt_irrefl. eapply str_lt_trans; eauto.
  Qed.

  Lemma ident_inj : forall a b, In a toks -> ident voc a = ident voc b -> a = b.
  Proof.
    intros a b Ha H. unfold ident in H.
    destruct (index_of_In a voc) as [i Ei]; [apply sorted_set_In; assumption|]. rewrite Ei in H.
    destruct (index_of b voc) as [j|] eqn:Ej; [|discriminate]. inversion H; subst.
    apply index_of_Some in Ei, Ej. congruence.
  Qed.

  Lemma ident_range : forall a, In a toks -> 1 <= ident voc a <= length voc.
  Proof.
    intros a Ha. unfold ident. destruct (index_of_In a voc) as [i Ei]; [apply sorted_set_In; assumption|]. rewrite Ei.
    apply index_of_Some in Ei. assert (i < length voc) by (apply nth_error_Some; congruence). lia.
  Qed.

  Definition F := fs (ids ++ repeat 0 3).

  Lemma F_in : forall i t, nth_error toks i = Some t -> F i = ident voc t.
  Proof.
    intros i t H. unfold F, fs. assert (i < length toks) by (apply nth_error_Some; congruence).
    rewrite app_nth1 by (unfold ids; rewrite map_length; assumption).
    apply nth_error_nth. unfold ids. rewrite nth_error_map, H. reflexivity.
  Qed.

  Lemma F_out : forall i, n <= i -> F i = 0.
  Proof.
    intros i H. unfold F, fs. rewrite app_nth2 by (unfold ids; rewrite map_length; assumption). apply nth_repeat0.
  Qed.

  Lemma F_bounded : bounded_seq F n.
  Proof.
    split; [|apply F_out]. intros i Hi. destruct (nth_error_lt_ex toks i Hi) as [t Ht]. rewrite (F_in i t Ht).
    pose proof (ident_range t (nth_error_In _ _ Ht)). lia.
  Qed.

  Lemma F_le : forall i, F i <= S (length voc).
  Proof.
    intros i. destruct (lt_dec i n) as [H|H]; [|rewrite F_out by lia; lia].
    destruct (nth_error_lt_ex toks i H) as [t Ht]. rewrite (F_in i t Ht).
    pose proof (ident_range t (nth_error_In _ _ Ht)). lia.
  Qed.

  Lemma slt_toks : forall i j, slt F i j -> toks_lt (skipn i toks) (skipn j toks).
  Proof.
    intros i j [k [A B]]. revert i j A B. induction k as [|k IH]; intros i j A B.
    - rewrite !Nat.add_0_r in B. destruct (lt_dec j n) as [Hj|Hj]; [|rewrite (F_out j) in B by lia; lia].
      destruct (nth_error_lt_ex toks j Hj) as [y Hy]. rewrite (skipn_nth_error _ _ _ Hy).
      destruct (lt_dec i n) as [Hi|Hi]; [|rewrite (skipn_all2 toks) by (fold n; lia); constructor].
      destruct (nth_error_lt_ex toks i Hi) as [x Hx]. rewrite (skipn_nth_error _ _ _ Hx). apply lex_head.
      rewrite (F_in i x Hx), (F_in j y Hy) in B. apply ident_lt; auto; eapply nth_error_In; eauto.
    - assert (E : F i = F j). { specialize (A 0). rewrite !Nat.add_0_r in A. apply A. lia. }
      pose proof F_bounded as [B1 B2].
      destruct (lt_dec i n) as [Hi|Hi].
      + destruct (lt_dec j n) as [Hj|Hj]; [|specialize (B1 i Hi); rewrite (B2 j) in E by lia; lia].
        destruct (nth_error_lt_ex toks i Hi) as [x Hx]. destruct (nth_error_lt_ex toks j Hj) as [y Hy].
        rewrite (skipn_nth_error _ _ _ Hx), (skipn_nth_error _ _ _ Hy).
        rewrite (F_in i x Hx), (F_in j y Hy) in E. apply ident_inj in E; [|eapply nth_error_In; eauto]. subst y.
        apply lex_tail. apply IH.
        * intros l Hl. specialize (A (S l)). rewrite !Nat.add_succ_r in A. simpl. apply A. lia.
        * rewrite !Nat.add_succ_r in B. assumption.
      + rewrite (B2 i) in E by lia. destruct (lt_dec j n) as [Hj|Hj]; [specialize (B1 j Hj); lia|].
        rewrite (B2 (j + S k)) in B by lia. lia.
  Qed.

  (** agreement of two suffixes over k positions *)
  Definition agree (i j k : nat) : Prop := forall l, l < k -> F (i + l) = F (j + l).

  Lemma agree_bound : forall i j k, i <> j -> i <= n -> j <= n -> agree i j k -> i + k <= n /\ j + k <= n.
  Proof.
    assert (G : forall i j k, i < j -> j <= n -> agree i j k -> j + k <= n).
    { intros i j k H1 H2 A. destruct (le_lt_dec (j + k) n) as [C|C]; [assumption|exfalso].
      pose proof F_bounded as [B1 B2]. specialize (A (n - j)). rewrite (B2 (j + (n - j))) in A by lia.
      specialize (B1 (i + (n - j))). lia. }
    intros i j k H1 H2 H3 A. destruct (lt_dec i j).
    - assert (j + k <= n) by (apply (G i j k); auto). lia.
    - assert (A' : agree j i k) by (intros q Hq; symmetry; apply A; assumption). assert (i + k <= n) by (apply (G j i k); auto; lia). lia.
  Qed.

  Lemma agree_firstn : forall k i j, agree i j k -> i + k <= n -> j + k <= n ->
    firstn k (skipn i toks) = firstn k (skipn j toks).
  Proof.
    induction k as [|k IH]; intros i j A Hi Hj; [reflexivity|].
    destruct (nth_error_lt_ex toks i) as [x Hx]; [fold n; lia|].
    destruct (nth_error_lt_ex toks j) as [y Hy]; [fold n; lia|].
    rewrite (skipn_nth_error _ _ _ Hx), (skipn_nth_error _ _ _ Hy). cbn [firstn].
    assert (E : F i = F j). { specialize (A 0). rewrite !Nat.add_0_r in A. apply A. lia. }
    rewrite (F_in i x Hx), (F_in j y Hy) in E. apply ident_inj in E; [|eapply nth_error_In; eauto].
    subst. f_equal. apply IH; try lia. intros l Hl. specialize (A (S l)). rewrite !Nat.add_succ_r in A. apply A. lia.
  Qed.

  Lemma firstn_agree : forall k i j, i + k <= n -> j + k <= n ->
    firstn k (skipn i toks) = firstn k (skipn j toks) -> agree i j k.
  Proof.
    induction k as [|k IH]; intros i j Hi Hj E l Hl; [lia|].
    destruct (nth_error_lt_ex toks i) as [x Hx]; [fold n; lia|].
    destruct (nth_error_lt_ex toks j) as [y Hy]; [fold n; lia|].
    rewrite (skipn_nth_error _ _ _ Hx), (skipn_nth_error _ _ _ Hy) in E.
    cbn [firstn] in E. injection E as E1 E2.
    destruct l.
    - rewrite !Nat.add_0_r, (F_in i x Hx), (F_in j y Hy). congruence.
    - rewrite !Nat.add_succ_r. apply (IH (S i) (S j)); try lia; assumption.
  Qed.

  Lemma agree_sandwich : forall a b c k, slt F a b -> slt F b c -> agree a c k -> agree a b k /\ agree b c k.
  Proof.
    intros a b c k [k1 [A1 A2]] [k2 [B1 B2]] AC.
    assert (k <= k1 /\ k <= k2).
    { destruct (lt_eq_lt_dec k1 k2) as [[H|H]|H].
      - specialize (B1 k1 H). destruct (le_lt_dec k k1); [lia|]. specialize (AC k1). lia.
      - subst k2. destruct (le_lt_dec k k1); [lia|]. specialize (AC k1). lia.
      - specialize (A1 k2 H). destruct (le_lt_dec k k2); [lia|]. specialize (AC k2). lia. }
    split; intros l Hl; [apply A1|apply B1]; lia.
  Qed.

  (** ** Longest common prefixes *)
  Lemma lcp_count_spec : forall i j, i <= n -> j <= n -> i <> j ->
    let k := longest_common_prefix ids i j in agree i j k /\ F (i + k) <> F (j + k).
  Proof.
    intros i j. unfold longest_common_prefix.
    assert (LI : length ids = n) by (unfold ids; apply map_length).
    remember (n - i) as d eqn:D. revert i j D.
    induction d as [|d IH]; intros i j D Hi Hj N.
    - rewrite (skipn_all2 ids) by lia. simpl. split; [intros l Hl; lia|]. rewrite !Nat.add_0_r.
      pose proof F_bounded as [B1 B2]. rewrite (B2 i) by lia. specialize (B1 j). lia.
    - destruct (nth_error_lt_ex toks i) as [x Hx]; [fold n; lia|].
      assert (Hx' : nth_error ids i = Some (ident voc x)) by (unfold ids; rewrite nth_error_map, Hx; reflexivity).
      rewrite (skipn_nth_error _ _ _ Hx').
      destruct (le_lt_dec n j) as [Hj'|Hj'].
      { rewrite (skipn_all2 (n:=j) ids) by lia. simpl. split; [intros l Hl; lia|]. rewrite !Nat.add_0_r.
        pose proof F_bounded as [B1 B2]. rewrite (B2 j) by lia. specialize (B1 i). lia. }
      destruct (nth_error_lt_ex toks j Hj') as [y Hy].
      assert (Hy' : nth_error ids j = Some (ident voc y)) by (unfold ids; rewrite nth_error_map, Hy; reflexivity).
      rewrite (skipn_nth_error _ _ _ Hy'). cbn [lcp_count].
      destruct (Nat.eqb_spec (ident voc x) (ident voc y)) as [E|E].
      + destruct (IH (S i) (S j)) as [A B]; try lia. split.
        * intros l Hl. destruct l.
          -- rewrite !Nat.add_0_r, (F_in i x Hx), (F_in j y Hy). assumption.
          -- rewrite !Nat.add_succ_r. apply (A l). lia.
        * rewrite !Nat.add_succ_r. assumption.
      + split; [intros l Hl; lia|]. rewrite !Nat.add_0_r, (F_in i x Hx), (F_in j y Hy). assumption.
  Qed.
End Ids.

(** ** SuffixArray.__init__ *)
Record sa_ok (toks : list str) (sa : suffarr) : Prop := {
  so_voc : sa_voc sa = sorted_set toks;
  so_string : sa_string sa = map (ident (sorted_set toks)) toks;
  so_perm : Permutation (sa_SA sa) (seq 0 (length toks));
  so_sorted : StronglySorted (slt (F toks)) (sa_SA sa);
  so_lcp : sa_LCP sa = lcp_array (sa_string sa) (sa_SA sa)
}.

Lemma suffix_array_ok : forall toks, length toks <> 1 -> exists sa, suffix_array toks = Ok sa /\ sa_ok toks sa.
Proof.
  intros toks Hn. unfold suffix_array. rewrite ids_ok. cbn [bind].
  set (ids := map (ident (sorted_set toks)) toks).
  assert (LI : length ids = length toks) by apply map_length.
  destruct (Nat.eq_dec (length toks) 0) as [Z|Z].
  - destruct toks; [|discriminate]. eexists. split; [reflexivity|]. constructor; simpl; auto; constructor.
  - destruct (dc3_spec (S (length toks)) (ids ++ repeat 0 3) (repeat 0 (length toks + 3)) (length toks) (S (length (sorted_set toks))))
      as [L [E [P SS]]]; try lia.
    + rewrite app_length, repeat_length. lia.
    + apply F_bounded.
    + apply F_le.
    + rewrite repeat_length. lia.
    + rewrite E. cbn [bind].
      assert (LL : length L = length toks) by (rewrite (Permutation_length P), seq_length; reflexivity).
      assert (FL : firstn (length toks) (L ++ skipn (length toks) (repeat 0 (length toks + 3))) = L).
      { rewrite firstn_app, LL, Nat.sub_diag. simpl. rewrite app_nil_r. apply firstn_all2. lia. }
      rewrite FL. eexists. split; [reflexivity|]. constructor; simpl; auto.
Qed.

Lemma suffix_array_one : forall t, suffix_array [t] = Ok {| sa_voc := [t]; sa_string := [1]; sa_SA := [1]; sa_LCP := [0] |}.
Proof.
  intros t. unfold suffix_array. simpl. unfold tok_id. simpl. rewrite str_eqb_refl. reflexivity.
Qed.

Section SA.
  Variables (toks : list str) (sa : suffarr).
  Hypothesis OK : sa_ok toks sa.
  Let n := length toks.
  Definition SAn (r : nat) := nth r (sa_SA sa) 0.
  Definition LCPn (r : nat) := nth r (sa_LCP sa) 0.

  Lemma SA_length : length (sa_SA sa) = n.
  Proof. rewrite (Permutation_length (so_perm _ _ OK)). apply seq_length. Qed.

  Lemma SAn_lt : forall r, r < n -> SAn r < n.
  Proof.
    intros r H. assert (I : In (SAn r) (seq 0 n)).
    { apply (Permutation_in _ (so_perm _ _ OK)). apply nth_In. rewrite SA_length. assumption. }
    apply in_seq in I. lia.
  Qed.

  Lemma SAn_sorted : forall r1 r2, r1 < r2 -> r2 < n -> slt (F toks) (SAn r1) (SAn r2).
  Proof. intros. unfold SAn. apply (StronglySorted_lt_nth (slt (F toks))); [apply OK|assumption|]. rewrite SA_length. assumption. Qed.

  Lemma SAn_inj : forall r1 r2, r1 < n -> r2 < n -> SAn r1 = SAn r2 -> r1 = r2.
  Proof.
    intros r1 r2 H1 H2 E. destruct (lt_eq_lt_dec r1 r2) as [[H|H]|H]; auto; exfalso.
    - apply (slt_irrefl (F toks) (SAn r2)). rewrite <- E at 1. apply SAn_sorted; assumption.
    - apply (slt_irrefl (F toks) (SAn r2)). rewrite <- E at 2. apply SAn_sorted; assumption.
  Qed.

  Lemma SAn_onto : forall p, p < n -> exists r, r < n /\ SAn r = p.
  Proof.
    intros p H. assert (I : In p (sa_SA sa)) by (apply (Permutation_in _ (Permutation_sym (so_perm _ _ OK))); apply in_seq; fold n; lia).
    destruct (In_nth _ _ 0 I) as [r [R1 R2]]. rewrite SA_length in R1. eauto.
  Qed.

  Lemma aget_SA : forall r, r < n -> aget (sa_SA sa) r = Ok (SAn r).
  Proof. intros. apply aget_nth. rewrite SA_length. assumption. Qed.

  Lemma lcp_array_nth : forall ids l r, S r < length l ->
    nth (S r) (lcp_array ids l) 0 = longest_common_prefix ids (nth r l 0) (nth (S r) l 0).
  Proof.
    intros ids l. destruct l as [|a l]; [intros r H; simpl in H; lia|]. unfold lcp_array.
    cbn [nth]. revert a. induction l as [|b l IH]; intros a r H; simpl in H; [lia|].
    destruct r; [reflexivity|]. cbn [combine map nth]. apply (IH b r). simpl. lia.
  Qed.

  Lemma lcp_array_length : forall ids l, length (lcp_array ids l) = length l.
  Proof.
    intros ids [|a l]; [reflexivity|]. cbn [lcp_array length]. rewrite map_length, combine_length. cbn [length]. lia.
  Qed.

  Lemma LCP_length : length (sa_LCP sa) = n.
  Proof. rewrite (so_lcp _ _ OK), lcp_array_length. apply SA_length. Qed.

  Lemma LCPn_0 : LCPn 0 = 0.
  Proof. unfold LCPn. rewrite (so_lcp _ _ OK). destruct (sa_SA sa); reflexivity. Qed.

  Lemma LCPn_spec : forall r, S r < n ->
    agree toks (SAn r) (SAn (S r)) (LCPn (S r)) /\ F toks (SAn r + LCPn (S r)) <> F toks (SAn (S r) + LCPn (S r)).
  Proof.
    intros r H. unfold LCPn. rewrite (so_lcp _ _ OK), (so_string _ _ OK), lcp_array_nth by (rewrite SA_length; assumption).
    fold (SAn r) (SAn (S r)). apply lcp_count_spec.
    - pose proof (SAn_lt r). fold n. lia.
    - pose proof (SAn_lt (S r)). fold n. lia.
    - intros E. apply SAn_inj in E; lia.
  Qed.

  Lemma LCPn_agree : forall r k, S r < n -> (agree toks (SAn r) (SAn (S r)) k <-> k <= LCPn (S r)).
  Proof.
    intros r k H. destruct (LCPn_spec r H) as [A B]. split.
    - intros Q. destruct (le_lt_dec k (LCPn (S r))) as [C|C]; [assumption|]. exfalso. apply B. apply Q. assumption.
    - intros Q l Hl. apply A. lia.
  Qed.

  (** agreement of two suffixes = minimum of the LCP values between them *)
  Lemma LCP_range : forall r1 r2 k, r1 < r2 -> r2 < n ->
    (agree toks (SAn r1) (SAn r2) k <-> forall r, r1 < r <= r2 -> k <= LCPn r).
  Proof.
    intros r1 r2 k H. induction H as [|r2 H IH]; intros Hn.
    - rewrite LCPn_agree by assumption. split.
      + intros Q r Hr. assert (r = S r1) by lia. subst. assumption.
      + intros Q. apply Q. lia.
    - split.
      + intros A r Hr. destruct (agree_sandwich toks (SAn r1) (SAn r2) (SAn (S r2)) k) as [A1 A2]; auto.
        * apply SAn_sorted; lia.
        * apply SAn_sorted; lia.
        * destruct (Nat.eq_dec r (S r2)).
          -- subst. apply LCPn_agree; assumption.
          -- apply IH; [lia|assumption|lia].
      + intros Q. assert (A1 : agree toks (SAn r1) (SAn r2) k) by (apply IH; [lia|intros; apply Q; lia]).
        assert (A2 : agree toks (SAn r2) (SAn (S r2)) k) by (apply LCPn_agree; auto).
        intros l Hl. rewrite A1, A2 by assumption. reflexivity.
  Qed.
End SA.
