(** Proofs about word texts and features of suffix arrays. *)
From Verif Require Import Py Lib TokenModel RangeSetModel SuffixModel SuffixSpec SuffixProof FindProof RadixProof DC3Proof SuffixTextModel SuffixTextSpec.
From Coq Require Import ZArith.
Open Scope list_scope.
Open Scope nat_scope.

(** ** Words *)
Definition padded (s : str) : str := replace1 newline [space; newline; space] s.
Definition kept (s : str) : list str := filter (fun tok => negb (str_eqb tok [])) (split_on space s).

Lemma split_on_ne : forall c s, split_on c s <> [].
Proof. intros c s. destruct s as [|x s]; cbn [split_on]; [discriminate|]. destruct (N.eqb x c); [discriminate|]. destruct (split_on c s); discriminate. Qed.

Lemma kept_space : forall s, kept (space :: s) = kept s.
Proof. intros s. unfold kept. cbn [split_on]. rewrite N.eqb_refl. reflexivity. Qed.

Lemma split_on_word : forall w s, ~ In space w -> split_on space (w ++ s) = match split_on space s with p :: ps => (w ++ p) :: ps | [] => [w] end.
Proof.
  induction w as [|x w IH]; intros s H; cbn [app split_on].
  - destruct (split_on space s) eqn:E; [exfalso; exact (split_on_ne _ _ E)|reflexivity].
  - destruct (N.eqb_spec x space) as [->|_]; [exfalso; apply H; left; reflexivity|]. rewrite IH by (intros Q; apply H; right; exact Q).
    destruct (split_on space s) eqn:E; [exfalso; exact (split_on_ne _ _ E)|reflexivity].
Qed.

Lemma kept_word : forall w s, w <> [] -> ~ In space w -> s = [] \/ (exists s', s = space :: s') -> kept (w ++ s) = w :: kept s.
Proof.
  intros w s N H E. unfold kept. rewrite (split_on_word w s H). assert (Q : negb (str_eqb w []) = true) by (destruct w; [contradiction|reflexivity]).
  destruct E as [->|[s' -> ]].
  - cbn [split_on app filter]. rewrite app_nil_r, Q. reflexivity.
  - cbn [split_on]. rewrite N.eqb_refl, app_nil_r. cbn [filter]. rewrite Q. reflexivity.
Qed.

Lemma padded_word : forall w s, ~ In newline w -> padded (w ++ s) = w ++ padded s.
Proof.
  unfold padded, replace1. induction w as [|x w IH]; intros s H; [reflexivity|]. cbn [app flat_map].
  destruct (N.eqb_spec x newline) as [->|_]; [exfalso; apply H; left; reflexivity|]. cbn [app]. f_equal. apply IH. intros Q. apply H. right. exact Q.
Qed.

Lemma words_kept : forall s l, words_of s l -> kept (padded s) = l.
Proof.
  intros s l H. induction H as [|s l H IH|s l H IH|w s l [N [Hs Hn]] E H IH].
  - reflexivity.
  - change (padded (32%N :: s)) with (space :: padded s). rewrite kept_space. exact IH.
  - change (padded (10%N :: s)) with (space :: ([newline] ++ space :: padded s)). rewrite kept_space, kept_word.
    + rewrite kept_space, IH. reflexivity.
    + discriminate.
    + intros [Q|[]]. discriminate Q.
    + right. eauto.
  - rewrite (padded_word w s Hn), kept_word, IH; [reflexivity|exact N|exact Hs|].
    destruct E as [->|[[s' -> ]|[s' -> ]]]; [left; reflexivity|right; eexists; reflexivity|right; eexists; reflexivity].
Qed.

Lemma words_exist : forall s, exists l, words_of s l.
Proof.
  assert (G : forall n s, length s <= n -> exists l, words_of s l).
  { induction n as [|n IH]; intros s L; [destruct s; [exists []; constructor|cbn [length] in L; lia]|].
    assert (SP : exists w s', s = w ++ s' /\ ~ In 32%N w /\ ~ In 10%N w /\ word_ends s').
    { clear. induction s as [|x s [w [s' [E [H1 [H2 H3]]]]]]; [exists [], []; repeat split; auto; left; reflexivity|].
      destruct (N.eqb_spec x 32) as [->|Nx]; [exists [], (32%N :: s); repeat split; auto; right; left; eauto|].
      destruct (N.eqb_spec x 10) as [->|Ny]; [exists [], (10%N :: s); repeat split; auto; right; right; eauto|].
      exists (x :: w), s'. subst s. repeat split; auto; intros [Q|Q]; auto. }
    destruct SP as [w [s' [-> [H1 [H2 H3]]]]]. destruct w as [|x w].
    - cbn [app] in *. destruct H3 as [->|[[t -> ]|[t -> ]]]; [exists []; constructor| |]; destruct (IH t) as [l Hl]; try (cbn [length] in L; lia); eexists; constructor; exact Hl.
    - destruct (IH s') as [l Hl]; [rewrite app_length in L; cbn [length] in L; lia|]. exists ((x :: w) :: l). constructor; [|exact H3|exact Hl].
      repeat split; [discriminate|exact H1|exact H2]. }
  intros s. apply (G (length s) s (Nat.le_refl _)).
Qed.

Theorem words_spec : forall s l, unit_tokens UNIT_WORD (TStr s) = Ok l <-> words_of s l.
Proof.
  intros s l. cbn [unit_tokens]. change (Ok (kept (padded s)) = Ok l <-> words_of s l). split.
  - intros H. injection H as <-. destruct (words_exist s) as [l' H]. rewrite (words_kept s l' H). exact H.
  - intros H. rewrite (words_kept s l H). reflexivity.
Qed.

(** ** The text of tokens *)
Definition token_ok (t : str) : Prop := a_word t \/ t = [10%N].

Lemma words_tokens : forall s l, words_of s l -> Forall token_ok l.
Proof. intros s l H. induction H; [constructor|assumption|constructor; [right; reflexivity|assumption]|constructor; [left; assumption|assumption]]. Qed.

Lemma newline_token_ok : forall t, newline_token t = true <-> t = [10%N].
Proof.
  intros t. split; [|intros ->; reflexivity]. unfold newline_token. destruct t as [|c [|y t]]; try discriminate. intros H. apply N.eqb_eq in H. subst. reflexivity.
Qed.
Lemma word_not_newline : forall t, a_word t -> newline_token t = false.
Proof. intros t [_ [_ H]]. destruct (newline_token t) eqn:E; [|reflexivity]. apply newline_token_ok in E. subst. exfalso. apply H. left. reflexivity. Qed.

Lemma written_words : forall l, Forall token_ok l -> words_of (written l) l.
Proof.
  intros l F. induction F as [|x l Hx F IH]; [constructor|]. cbn [written]. destruct l as [|y l].
  - destruct Hx as [Hx| -> ]; [|constructor; constructor]. rewrite <- (app_nil_r x) at 1. constructor; [exact Hx|left; reflexivity|constructor].
  - destruct Hx as [Hx| -> ].
    + rewrite (word_not_newline x Hx). cbn [orb]. destruct (newline_token y) eqn:Ey.
      * cbn [app]. constructor; [exact Hx| |exact IH]. apply newline_token_ok in Ey. subst y. right. right. cbn [written]. destruct l; eexists; reflexivity.
      * constructor; [exact Hx|right; left; eexists; reflexivity|]. cbn [app]. constructor. exact IH.
    + cbn [newline_token orb app]. constructor. exact IH.
Qed.

(** The two replacements: first a space before a newline goes, then a space behind one. *)
Fixpoint half (l : list str) : str :=
  match l with
  | [] => []
  | x :: l' => match l' with [] => x | y :: _ => x ++ (if newline_token y then [] else [32%N]) ++ half l' end
  end.

Lemma replace2_skip : forall a b new w s, ~ In a w -> replace2 a b new (w ++ s) = w ++ replace2 a b new s.
Proof.
  induction w as [|x w IH]; intros s H; [reflexivity|]. cbn [app replace2].
  assert (E : N.eqb x a = false) by (apply N.eqb_neq; intros ->; apply H; left; reflexivity). rewrite E. cbn [andb].
  assert (IH' := IH s (fun Q => H (or_intror Q))). destruct (w ++ s) as [|y s''] eqn:Q; [|rewrite IH'; reflexivity].
  apply app_eq_nil in Q as [-> -> ]. reflexivity.
Qed.

Lemma token_no_space : forall t, token_ok t -> ~ In 32%N t.
Proof. intros t [[_ [H _]]| -> ]; [exact H|intros [Q|[]]; discriminate]. Qed.

Lemma replace_space : forall c s, c <> newline -> replace2 space newline [newline] (space :: c :: s) = space :: replace2 space newline [newline] (c :: s).
Proof.
  intros c s H. cbn [replace2]. apply N.eqb_neq in H. rewrite H, andb_false_r. reflexivity.
Qed.

Lemma join_hd : forall y l, exists t, join_with [space] (y :: l) = y ++ t.
Proof. intros y [|z l]; cbn [join_with]; [exists []; rewrite app_nil_r; reflexivity|eexists; reflexivity]. Qed.

Lemma first_half : forall l, Forall token_ok l -> replace2 space newline [newline] (join_with [space] l) = half l.
Proof.
  intros l F. induction F as [|x l Hx F IH]; [reflexivity|]. cbn [join_with half]. destruct l as [|y l].
  - rewrite <- (app_nil_r x) at 1. rewrite replace2_skip by (apply token_no_space; exact Hx). apply app_nil_r.
  - rewrite replace2_skip by (apply token_no_space; exact Hx). f_equal. inversion F as [|? ? Hy F']; subst.
    destruct Hy as [Hy| -> ].
    + rewrite (word_not_newline y Hy). destruct (join_hd y l) as [t E]. rewrite <- IH, E. destruct y as [|c y]; [exfalso; apply (proj1 Hy); reflexivity|].
      cbn [app]. apply replace_space. intros ->. apply (proj2 (proj2 Hy)). left. reflexivity.
    + cbn [newline_token app]. rewrite <- IH. destruct l as [|z l]; [reflexivity|].
      change (join_with [space] ([10%N] :: z :: l)) with (newline :: space :: join_with [space] (z :: l)).
      cbn [app]. set (r := space :: join_with [space] (z :: l)).
      assert (E : replace2 space newline [newline] (newline :: r) = newline :: replace2 space newline [newline] r)
        by (apply (replace2_skip space newline [newline] [newline] r); intros [Q|[]]; discriminate).
      rewrite E. unfold r. cbn [replace2]. reflexivity.
Qed.

Lemma half_hd : forall y l, token_ok y -> exists c t, half (y :: l) = c :: t /\ c <> space.
Proof.
  intros y l H. pose proof (token_no_space y H) as NS. destruct y as [|c y]; [exfalso; destruct H as [[H _]|H]; [apply H; reflexivity|discriminate]|].
  exists c. assert (Hc : c <> space) by (intros ->; apply NS; left; reflexivity). cbn [half]. destruct l; eexists; (split; [reflexivity|exact Hc]).
Qed.

Lemma second_half : forall l, Forall token_ok l -> replace2 newline space [newline] (half l) = written l.
Proof.
  intros l F. induction F as [|x l Hx F IH]; [reflexivity|]. cbn [half written]. destruct l as [|y l].
  - destruct Hx as [[_ [_ H]]| -> ]; [|reflexivity]. rewrite <- (app_nil_r x) at 1. rewrite replace2_skip by exact H. apply app_nil_r.
  - inversion F as [|? ? Hy F']; subst. destruct (half_hd y l Hy) as [c [t [E Hc]]]. destruct Hx as [Hx| -> ].
    + rewrite (word_not_newline x Hx). cbn [orb]. rewrite replace2_skip by apply Hx. f_equal. destruct (newline_token y); cbn [app]; [exact IH|].
      change (32%N :: half (y :: l)) with ([space] ++ half (y :: l)). rewrite replace2_skip by (intros [Q|[]]; discriminate). rewrite IH. reflexivity.
    + cbn [newline_token orb app]. destruct (newline_token y) eqn:Ey; cbn [app].
      * rewrite E in *. cbn [replace2]. rewrite N.eqb_refl. apply N.eqb_neq in Hc. rewrite Hc. cbn [andb]. f_equal. exact IH.
      * cbn [replace2]. rewrite !N.eqb_refl. cbn [andb app]. f_equal. exact IH.
Qed.

Lemma word_text : forall l, Forall token_ok l -> replace2 newline space [newline] (replace2 space newline [newline] (join_with [space] l)) = written l.
Proof. intros l F. rewrite (first_half l F). apply second_half. exact F. Qed.

(** ** Creation *)
Lemma array_made : forall t u b ta, create_array t u b = Ok ta -> exists toks, unit_tokens u t = Ok toks /\ suffix_array toks = Ok (ta_sa ta) /\
  ta_unit ta = u /\ ta_nbSentences ta = count_str [newline] toks /\
  ta_vocSize ta = length (sa_voc (ta_sa ta)) - (if existsb (str_eqb [newline]) (sa_voc (ta_sa ta)) then 1 else 0).
Proof.
  intros t u b ta H. unfold create_array in H. apply bind_ok in H as [toks [H1 H]]. apply bind_ok in H as [sa [H2 H]].
  exists toks. split; [exact H1|]. destruct b; [injection H as <-; auto|]. unfold add_feature_sa, lcp_callback in H. cbn [bind] in H. injection H as <-. auto.
Qed.

Lemma array_total : forall t u b toks, unit_tokens u t = Ok toks -> exists ta, create_array t u b = Ok ta.
Proof.
  intros t u b toks H. unfold create_array. rewrite H. cbn [bind].
  assert (exists sa, suffix_array toks = Ok sa) as [sa E].
  { destruct (Nat.eq_dec (length toks) 1) as [E|E]; [|destruct (suffix_array_ok toks E) as [sa [Q _]]; eauto].
    destruct toks as [|x [|? ?]]; try discriminate. eexists. apply suffix_array_one. }
  rewrite E. cbn [bind]. destruct b; [eauto|]. unfold add_feature_sa, lcp_callback. cbn [bind]. eauto.
Qed.

Lemma array_ids : forall toks sa, suffix_array toks = Ok sa -> sa_voc sa = sorted_set toks /\ mapM (tok_id (sorted_set toks)) toks = Ok (sa_string sa) /\
  length (sa_SA sa) = length toks /\ sa_LCP sa = lcp_array (sa_string sa) (sa_SA sa).
Proof.
  intros toks sa H. destruct (Nat.eq_dec (length toks) 1) as [E|E].
  - destruct toks as [|x [|? ?]]; try discriminate. rewrite suffix_array_one in H. injection H as <-. cbn [sa_voc sa_string sa_SA sa_LCP length].
    cbn [sorted_set fold_right insert_set mapM tok_id index_of]. unfold tok_id. cbn [index_of]. rewrite (proj2 (str_eqb_ok x x) eq_refl). repeat split.
  - destruct (suffix_array_ok toks E) as [sa' [E' OK]]. rewrite E' in H. injection H as ->. split; [apply OK|]. split; [|split; [apply (SA_length _ _ OK)|]].
    + unfold suffix_array in E'. apply bind_ok in E' as [ids [E1 E2]]. apply bind_ok in E2 as [SA [E2 E3]]. injection E3 as <-. exact E1.
    + unfold suffix_array in E'. apply bind_ok in E' as [ids [E1 E2]]. apply bind_ok in E2 as [SA [E2 E3]]. injection E3 as <-. reflexivity.
Qed.

Lemma ids_back : forall voc toks ids, mapM (tok_id voc) toks = Ok ids -> Forall2 (fun t id => voc_entry voc id = Ok (Some t)) toks ids.
Proof.
  intros voc. induction toks as [|t toks IH]; intros ids H; cbn [mapM] in H; [injection H as <-; constructor|].
  apply bind_ok in H as [i [H1 H]]. apply bind_ok in H as [ids' [H2 H]]. injection H as <-. constructor; [|apply IH; exact H2].
  unfold tok_id in H1. destruct (index_of t voc) as [k|] eqn:E; [|discriminate]. injection H1 as <-. cbn [voc_entry].
  rewrite (index_of_Some t voc k E). reflexivity.
Qed.

Lemma F2_slice : forall {A B} (R : A -> B -> Prop) l l' p k, Forall2 R l l' -> Forall2 R (firstn k (skipn p l)) (firstn k (skipn p l')).
Proof.
  intros A B R l l' p k H. revert p k. induction H as [|x y l l' Hx H IH]; intros p k; [rewrite !skipn_nil, !firstn_nil; constructor|].
  destruct p as [|p]; [|apply IH]. destruct k as [|k]; [constructor|]. cbn [skipn firstn]. constructor; [exact Hx|]. apply (IH 0 k).
Qed.

Lemma repr_tokens : forall ta toks p k, suffix_array toks = Ok (ta_sa ta) -> repr_string ta p k = Ok (
  match ta_unit ta with
  | UNIT_WORD => replace2 newline space [newline] (replace2 space newline [newline] (join_with [space] (firstn k (skipn p toks))))
  | _ => join_with [] (firstn k (skipn p toks))
  end).
Proof.
  intros ta toks p k H. destruct (array_ids _ _ H) as [EV [EI [_ _]]]. pose proof (ids_back _ _ _ EI) as F. unfold repr_string, repr_ids, slice.
  set (s := sa_string (ta_sa ta)) in *. assert (L : length s = length toks).
  { clear - F. induction F; cbn [length]; congruence. }
  assert (EQ : firstn (Nat.min k (length s - p)) (firstn (Nat.min k (length s - p)) (skipn p s)) = firstn k (skipn p s)).
  { rewrite firstn_firstn, Nat.min_id. destruct (Nat.le_ge_cases k (length s - p)).
    - rewrite Nat.min_l by assumption. reflexivity.
    - rewrite Nat.min_r by assumption. rewrite !firstn_all2; [reflexivity|rewrite skipn_length; lia|rewrite skipn_length; lia]. }
  rewrite EQ, EV. pose proof (F2_slice _ _ _ p k F) as F'. revert F'. generalize (firstn k (skipn p toks)) (firstn k (skipn p s)). intros l ids F'.
  assert (E1 : mapM (voc_entry (sorted_set toks)) ids = Ok (map Some l)).
  { clear - F'. induction F' as [|t i l ids E F IH]; [reflexivity|]. cbn [mapM map]. rewrite E. cbn [bind]. rewrite IH. reflexivity. }
  rewrite E1. cbn [bind]. assert (E2 : mapM (fun t => match t with Some x => Ok x | None => Raise TypeError end) (map (@Some str) l) = Ok l).
  { clear. induction l as [|x l IH]; [reflexivity|]. cbn [map mapM bind]. rewrite IH. reflexivity. }
  rewrite E2. cbn [bind]. reflexivity.
Qed.

(** ** Neat texts *)
Definition inner (s : str) : Prop :=
  (forall a, s <> a ++ [32%N]) /\ (forall a b, s <> a ++ [32%N; 32%N] ++ b) /\
  (forall a b, s <> a ++ [32%N; 10%N] ++ b) /\ (forall a b, s <> a ++ [10%N; 32%N] ++ b).

Lemma inner_suffix : forall w s, inner (w ++ s) -> inner s.
Proof.
  intros w s [H1 [H2 [H3 H4]]]. repeat split; [intros a Q; apply (H1 (w ++ a))|intros a b Q; apply (H2 (w ++ a) b)|intros a b Q; apply (H3 (w ++ a) b)|intros a b Q; apply (H4 (w ++ a) b)];
    rewrite Q, !app_assoc; reflexivity.
Qed.

Lemma written_hd : forall y l, token_ok y -> exists c t u, y = c :: t /\ written (y :: l) = c :: u.
Proof.
  intros y l H. destruct y as [|c y]; [exfalso; destruct H as [[H _]|H]; [apply H; reflexivity|discriminate]|].
  exists c, y. cbn [written]. destruct l; eexists; (split; [reflexivity|reflexivity]).
Qed.

Lemma neat_written : forall s l, words_of s l -> inner s -> s = written l \/ exists s', s = 32%N :: s' /\ s' = written l.
Proof.
  intros s l H. induction H as [|s l H IH|s l H IH|w s l Hw E H IH]; intros I.
  - left. reflexivity.
  - right. exists s. split; [reflexivity|]. destruct (IH (inner_suffix [32%N] s I)) as [Q|[s' [Q _]]]; [exact Q|]. exfalso. destruct I as [_ [I _]].
    apply (I [] s'). rewrite Q. reflexivity.
  - left. destruct (IH (inner_suffix [10%N] s I)) as [Q|[s' [Q _]]].
    + cbn [written]. destruct l as [|y l]; [rewrite Q; reflexivity|]. cbn [newline_token]. rewrite N.eqb_refl. cbn [orb app]. rewrite Q at 1. reflexivity.
    + exfalso. destruct I as [_ [_ [_ I]]]. apply (I [] s'). rewrite Q. reflexivity.
  - left. pose proof (words_tokens _ _ H) as F. pose proof (inner_suffix w s I) as I'. destruct (IH I') as [Q|[s' [Q1 Q2]]].
    + destruct l as [|y l]; [cbn [written] in *; rewrite Q; apply app_nil_r|]. inversion F as [|? ? Hy F']; subst.
      destruct (written_hd y l Hy) as [c [t [u [Ey Ew]]]]. destruct E as [E|[[s' E]|[s' E]]]; [congruence| |].
      * exfalso. rewrite E in Ew. injection Ew as <- _. apply (token_no_space y Hy). rewrite Ey. left. reflexivity.
      * assert (N : newline_token y = true).
        { rewrite E in Ew. injection Ew as <- _. apply newline_token_ok. destruct Hy as [[_ [_ Hy]]|Hy]; [exfalso; apply Hy; rewrite Ey; left; reflexivity|exact Hy]. }
        change (written (w :: y :: l)) with (w ++ (if newline_token w || newline_token y then [] else [32%N]) ++ written (y :: l)). rewrite N, orb_true_r. reflexivity.
    + destruct l as [|y l].
      * exfalso. cbn [written] in Q2. subst s' s. destruct I' as [I' _]. apply (I' []). reflexivity.
      * inversion F as [|? ? Hy F']; subst. cbn [written]. rewrite (word_not_newline w Hw). cbn [orb].
        assert (N : newline_token y = false).
        { destruct (newline_token y) eqn:Ey; [|reflexivity]. exfalso. apply newline_token_ok in Ey. destruct (written_hd y l Hy) as [c [t [u [Ec Ew]]]].
          rewrite Ey in Ec. injection Ec as <- <-. destruct I' as [_ [_ [I' _]]]. apply (I' [] u). rewrite Ew. reflexivity. }
        rewrite N. reflexivity.
Qed.

Lemma neat_inner : forall s, neat s -> inner s.
Proof. intros s [_ [H2 [H3 [H4 H5]]]]. repeat split; assumption. Qed.

Theorem neat_text : forall s l, words_of s l -> neat s -> written l = s.
Proof.
  intros s l H N. destruct (neat_written s l H (neat_inner s N)) as [Q|[s' [Q _]]]; [symmetry; exact Q|]. exfalso. destruct N as [N _]. exact (N s' Q).
Qed.

(** ** Counts *)
Lemma newlines_counted : forall s l, words_of s l -> count_str [newline] l = count_occ N.eq_dec s 10%N.
Proof.
  intros s l H. unfold count_str. induction H as [|s l H IH|s l H IH|w s l Hw E H IH]; [reflexivity| | |].
  - cbn [count_occ]. destruct (N.eq_dec 32 10); [discriminate|exact IH].
  - cbn [count_occ filter]. rewrite (proj2 (str_eqb_ok _ _) eq_refl). cbn [length]. destruct (N.eq_dec 10 10); [|congruence]. rewrite IH. reflexivity.
  - cbn [filter]. replace (str_eqb [newline] w) with false.
    + rewrite count_occ_app, IH. rewrite (proj1 (count_occ_not_In N.eq_dec w 10%N)); [reflexivity|apply Hw].
    + symmetry. apply not_true_is_false. intros Q. apply str_eqb_ok in Q. apply (proj2 (proj2 Hw)). rewrite <- Q. left. reflexivity.
Qed.

Lemma sorted_set_NoDup : forall l, NoDup (sorted_set l).
Proof.
  intros l. pose proof (sorted_set_sorted l) as H. induction H as [|x m H IH F]; constructor; [|exact IH].
  intros Q. rewrite Forall_forall in F. exact (str_lt_irrefl _ (F _ Q)).
Qed.

Lemma remove_one : forall (x : str) l, NoDup l -> length (filter (fun y => negb (str_eqb x y)) l) = length l - (if existsb (str_eqb x) l then 1 else 0).
Proof.
  intros x l H. induction H as [|y l Hy H IH]; [reflexivity|]. cbn [filter existsb length]. destruct (str_eqb x y) eqn:E; cbn [negb orb].
  - apply str_eqb_ok in E. subst y. rewrite IH. replace (existsb (str_eqb x) l) with false; [lia|]. symmetry. apply not_true_is_false. intros Q.
    apply existsb_exists in Q as [z [Hz Q]]. apply str_eqb_ok in Q. subst. contradiction.
  - cbn [length]. rewrite IH. destruct (existsb (str_eqb x) l) eqn:Q; [|lia]. assert (length l <> 0) by (destruct l; [discriminate|discriminate]). lia.
Qed.

Lemma voc_counted : forall t u b ta toks, create_array t u b = Ok ta -> unit_tokens u t = Ok toks ->
  exists voc, NoDup voc /\ (forall x, In x voc <-> In x toks /\ x <> [10%N]) /\ ta_vocSize ta = length voc.
Proof.
  intros t u b ta toks H HT. destruct (array_made _ _ _ _ H) as [toks' [E [HS [_ [_ EV]]]]]. rewrite HT in E. injection E as <-.
  destruct (array_ids _ _ HS) as [EQ _]. rewrite EQ in EV. rewrite <- (remove_one _ _ (sorted_set_NoDup toks)) in EV.
  eexists. split; [|split; [|exact EV]]; [apply NoDup_filter; apply sorted_set_NoDup|].
  intros x. rewrite filter_In, sorted_set_In, negb_true_iff. split; intros [A B]; (split; [exact A|]).
  - intros ->. rewrite (proj2 (str_eqb_ok _ _) eq_refl) in B. discriminate.
  - apply not_true_is_false. intros Q. apply str_eqb_ok in Q. auto.
Qed.

Lemma join_chars : forall s, join_with [] (map (fun c : N => [c]) s) = s.
Proof.
  induction s as [|c s IH]; [reflexivity|]. cbn [map join_with]. destruct s as [|d s]; [reflexivity|]. cbn [map] in *. cbn [app]. f_equal. exact IH.
Qed.

(** ** Features *)
Lemma mapM_nums : forall l, mapM (fun v => match v with JNum z => if Z.leb 0 z then Ok (Z.to_nat z) else Raise TypeError | _ => Raise TypeError end)
  (map (fun k => JNum (Z.of_nat k)) l) = Ok l.
Proof.
  induction l as [|k l IH]; [reflexivity|]. cbn [map mapM]. rewrite (proj2 (Z.leb_le 0 (Z.of_nat k))) by lia. cbn [bind]. rewrite IH, Nat2Z.id. reflexivity.
Qed.

Lemma built_inv : forall u toks ta, built u toks ta -> suffix_array toks = Ok (ta_sa ta) /\ ta_unit ta = u /\ lcp_values ta = Ok (sa_LCP (ta_sa ta)).
Proof.
  intros u toks ta H. induction H as [t ta HT H|ta cb d name ta' H IH N E|ta cb d name args ta' H IH N E].
  - destruct (array_made _ _ _ _ H) as [toks' [E [HS [HU _]]]]. rewrite HT in E. injection E as <-. split; [exact HS|]. split; [exact HU|].
    unfold create_array in H. rewrite HT in H. cbn [bind] in H. rewrite HS in H. cbn [bind] in H. unfold add_feature_sa, lcp_callback in H. cbn [bind] in H.
    injection H as <-. unfold lcp_values. cbn [ta_attrs set_feature]. rewrite (dget_set_same _ str_eqb_ok). cbn [ft_values ta_sa]. apply mapM_nums.
  - destruct IH as [I1 [I2 I3]]. unfold add_feature_sa in E. apply bind_ok in E as [vals [_ E]]. injection E as <-. cbn [set_feature ta_sa ta_unit].
    split; [exact I1|]. split; [exact I2|]. unfold lcp_values in *. cbn [set_feature ta_attrs]. rewrite (dget_set_other _ str_eqb_ok) by auto. exact I3.
  - destruct IH as [I1 [I2 I3]]. unfold add_feature in E. apply bind_ok in E as [ar [_ E]]. apply bind_ok in E as [vals [_ E]]. injection E as <-. cbn [set_feature ta_sa ta_unit].
    split; [exact I1|]. split; [exact I2|]. unfold lcp_values in *. cbn [set_feature ta_attrs]. rewrite (dget_set_other _ str_eqb_ok) by auto. exact I3.
Qed.

Lemma find_one_spec : forall toks sa sub, length toks <> 1 -> suffix_array toks = Ok sa -> exists o, find_one sa sub = Ok o /\
  match o with
  | Some m => exists p, nth_error (sa_SA sa) m = Some p /\ occurs_at sub toks p
  | None => forall p, ~ occurs_at sub toks p
  end.
Proof.
  intros toks sa sub Hn H. destruct (suffix_array_ok toks Hn) as [sa' [E' OK]]. rewrite E' in H. injection H as ->.
  unfold find_one. rewrite (so_voc _ _ OK).
  assert (D : (forall t, In t sub -> In t toks) \/ exists t, In t sub /\ ~ In t toks).
  { clear. induction sub as [|a sub IH]; [left; intros t []|]. destruct (in_dec str_dec a toks).
    - destruct IH as [H|[t [H1 H2]]]; [left; intros t [<-|Ht]; auto|]. right. exists t. cbn. auto.
    - right. exists a. cbn. auto. }
  destruct D as [D|D].
  2:{ rewrite mapM_tok_id_fail by assumption. exists None. split; [reflexivity|]. intros p [_ H]. destruct D as [t [D1 D2]]. apply D2. rewrite <- H in D1. eapply In_slice; eauto. }
  rewrite (mapM_tok_id toks sub D). set (sids := map (ident (sorted_set toks)) sub).
  assert (LS : length sids = length sub) by apply map_length. rewrite (so_string _ _ OK).
  assert (LI : length (map (ident (sorted_set toks)) toks) = length toks) by apply map_length. rewrite LI.
  destruct (find_one_loop_spec toks sa OK sids (length toks) 0 (length toks)) as [o [E HO]]; try lia.
  exists o. split; [exact E|]. destruct o as [m|].
  - destruct HO as [Hm HO]. rewrite LS in HO. apply (pref_occurs toks sa OK) in HO; try assumption. exists (SAn sa m). split; [|exact HO].
    unfold SAn. apply nth_error_nth'. rewrite (SA_length toks sa OK). exact Hm.
  - intros p Hp. destruct (SAn_onto toks sa OK p (proj1 Hp)) as [r [R1 R2]]. apply (HO r R1). rewrite LS. apply (pref_occurs toks sa OK); try assumption. rewrite R2. exact Hp.
Qed.

Lemma heads_ok : forall n fs, Forall (fun f : list jval => length f = S n) fs ->
  fold_right (fun f acc => match f, acc with v :: _, Some vs => Some (v :: vs) | _, _ => None end) (Some []) fs = Some (map (fun f => nth 0 f JNull) fs).
Proof.
  intros n fs F. induction F as [|f fs Hf F IH]; [reflexivity|]. cbn [fold_right map]. rewrite IH. destruct f as [|v f]; [discriminate|reflexivity].
Qed.

Lemma zip_nth : forall l fs, Forall (fun f => length f = length l) fs ->
  map fst (zip_features l fs) = l /\ forall x, In x (zip_features l fs) -> exists i, nth_error l i = Some (fst x) /\ snd x = map (fun f => nth i f JNull) fs.
Proof.
  induction l as [|p l IH]; intros fs F; [split; [reflexivity|intros x []]|]. cbn [zip_features]. rewrite (heads_ok (length l) fs F).
  assert (F' : Forall (fun f => length f = length l) (map (@tl jval) fs)).
  { apply Forall_forall. intros f Hf. apply in_map_iff in Hf as [g [<- Hg]]. rewrite Forall_forall in F. specialize (F g Hg). destruct g; [discriminate|]. cbn in *. lia. }
  destruct (IH _ F') as [I1 I2]. split; [cbn [map fst]; rewrite I1; reflexivity|]. intros x [<-|Hx].
  - exists 0. split; reflexivity.
  - destruct (I2 x Hx) as [i [E1 E2]]. exists (S i). split; [exact E1|]. rewrite E2, map_map. apply map_ext_in. intros f Hf.
    rewrite Forall_forall in F. specialize (F f Hf). destruct f; [discriminate|reflexivity].
Qed.

Lemma nth_error_firstn_lt : forall {A} (l : list A) n i, i < n -> nth_error (firstn n l) i = nth_error l i.
Proof. intros A l. induction l as [|x l IH]; intros n i H; [rewrite firstn_nil; reflexivity|]. destruct n; [lia|]. destruct i; [reflexivity|]. apply IH. lia. Qed.

Lemma nth_error_slice : forall {A} (l : list A) lo k i x, nth_error (slice l lo k) i = Some x -> i < k /\ nth_error l (lo + i) = Some x.
Proof.
  intros A l lo k i x H. assert (i < k).
  { assert (i < length (slice l lo k)) by (apply nth_error_Some; congruence). unfold slice in *. rewrite firstn_length in *. lia. }
  split; [assumption|]. unfold slice in H. rewrite nth_error_firstn_lt in H by assumption. rewrite nth_error_skipn in H. exact H.
Qed.

Theorem find_with_features : forall u toks ta sub subt names, built u toks ta -> length toks <> 1 -> unit_tokens u sub = Ok subt ->
  Forall (fun name => exists vs, has_feature ta name vs) names ->
  exists R, find_features ta sub names = Ok R /\ NoDup (map fst R) /\ (forall p, In p (map fst R) <-> occurs_at subt toks p) /\
    forall p vs, In (p, vs) R -> Forall2 (fun name v => exists V, feature_values ta name = Ok V /\ attached ta V p v) names vs.
Proof.
  intros u toks ta sub subt names B Hn HT FN. destruct (built_inv _ _ _ B) as [HS [HU HL]].
  destruct (suffix_array_ok toks Hn) as [sa' [E' OK]]. rewrite E' in HS. injection HS as ->.
  destruct (find_spec toks _ OK subt) as [l [HF [ND HI]]]. unfold find_features, ta_find_one. rewrite HL, HU, HT. cbn [bind].
  destruct (find_one_spec toks _ subt Hn E') as [o [HO HM]]. unfold find in HF. rewrite HO in HF |- *. cbn [bind] in *. destruct o as [m|].
  2:{ exists []. split; [reflexivity|]. split; [constructor|]. split; [intros p; split; [intros []|intros Q; exact (HM p Q)]|intros p vs []]. }
  destruct (mapM (tok_id (sa_voc (ta_sa ta))) subt) as [ids|] eqn:EI; [|discriminate]. cbn [bind] in HF |- *.
  assert (LN : length (sa_LCP (ta_sa ta)) = length toks) by apply (LCP_length toks _ OK).
  assert (AG : exists x, aget (sa_LCP (ta_sa ta)) m = Ok x).
  { destruct HM as [p [HM _]]. assert (m < length (sa_LCP (ta_sa ta))) by (rewrite LN, <- (SA_length toks _ OK); apply nth_error_Some; congruence).
    unfold aget. destruct (nth_error (sa_LCP (ta_sa ta)) m) eqn:Q; [eauto|]. apply nth_error_None in Q. lia. }
  destruct AG as [x AG]. rewrite AG. cbn [bind].
  destruct (find_lower (sa_LCP (ta_sa ta)) (length ids) m) as [lo|] eqn:EL; [|discriminate]. cbn [bind] in HF |- *.
  destruct (find_upper (length (sa_string (ta_sa ta))) (sa_LCP (ta_sa ta)) (length (sa_string (ta_sa ta))) (length ids) (m + 1)) as [up|] eqn:EU; [|discriminate].
  cbn [bind] in HF |- *. injection HF as HF.
  assert (exists fs, mapM (feature_values ta) names = Ok fs /\ Forall2 (fun name V => feature_values ta name = Ok V /\ length V = length (sa_SA (ta_sa ta))) names fs) as [fs [EF F2]].
  { clear - FN. induction FN as [|name names [vs [H1 H2]] F IH]; [exists []; split; [reflexivity|constructor]|]. destruct IH as [fs [E F2]].
    exists (vs :: fs). cbn [mapM]. rewrite H1. cbn [bind]. rewrite E. cbn [bind]. split; [reflexivity|]. constructor; auto. }
  rewrite EF. cbn [bind].
  assert (FL : Forall (fun f => length f = length (slice (sa_SA (ta_sa ta)) lo (up - lo))) (map (fun f => slice f lo (up - lo)) fs)).
  { apply Forall_forall. intros f Hf. apply in_map_iff in Hf as [V [<- HV]]. unfold slice. rewrite !firstn_length, !skipn_length.
    assert (length V = length (sa_SA (ta_sa ta))) as ->; [|reflexivity]. clear - F2 HV. induction F2 as [|a b names fs Q F2 IH]; [contradiction|]. destruct HV as [<-|HV]; [apply Q|apply IH; exact HV]. }
  destruct (zip_nth _ _ FL) as [Z1 Z2]. eexists. split; [reflexivity|]. rewrite Z1, HF. split; [exact ND|]. split; [exact HI|].
  intros p vs Hin. rewrite <- HF in Hin. destruct (Z2 _ Hin) as [i [Y1 Y2]]. cbn [fst snd] in Y1, Y2. subst vs. apply nth_error_slice in Y1 as [Ik Y1].
  clear - F2 Y1 Ik. induction F2 as [|name V names fs [Q1 Q2] F2 IH]; cbn [map]; constructor; [|exact IH].
  exists V. split; [exact Q1|]. exists (lo + i). split; [exact Y1|].
  assert (LV : lo + i < length V) by (rewrite Q2; apply nth_error_Some; congruence).
  assert (E : nth_error (slice V lo (up - lo)) i = nth_error V (lo + i)) by (unfold slice; rewrite nth_error_firstn_lt by exact Ik; apply nth_error_skipn).
  rewrite <- E. apply nth_error_nth'. apply nth_error_Some. rewrite E. apply nth_error_Some. exact LV.
Qed.

Theorem lookup_feature : forall u toks ta sub subt name f, built u toks ta -> length toks <> 1 -> unit_tokens u sub = Ok subt ->
  dget str_eqb name (ta_attrs ta) = Some f -> length (ft_values f) = length (sa_SA (ta_sa ta)) ->
  exists v, lookup ta name sub = Ok v /\
    ((forall p, ~ occurs_at subt toks p) -> v = ft_default f) /\
    ((exists p, occurs_at subt toks p) -> (exists p, occurs_at subt toks p /\ attached ta (ft_values f) p v) \/ (ft_truthy f = true /\ v = ft_default f)).
Proof.
  intros u toks ta sub subt name f B Hn HT HF HL'. destruct (built_inv _ _ _ B) as [HS [HU HL]]. unfold lookup, ta_find_one. rewrite HF, HL, HU, HT. cbn [bind].
  destruct (find_one_spec toks _ subt Hn HS) as [o [HO HM]]. rewrite HO. cbn [bind]. destruct o as [m|].
  - destruct HM as [p [HM HP]]. assert (m < length (ft_values f)) by (rewrite HL'; apply nth_error_Some; congruence).
    destruct (ft_truthy f && (m =? 0)) eqn:ET.
    + apply andb_true_iff in ET as [ET _]. eexists. split; [reflexivity|]. split; [intros Q; exfalso; exact (Q p HP)|]. intros _. right. auto.
    + destruct (nth_error (ft_values f) m) as [v|] eqn:EV; [|apply nth_error_None in EV; lia]. exists v. split; [reflexivity|]. split; [intros Q; exfalso; exact (Q p HP)|].
      intros _. left. exists p. split; [exact HP|]. exists m. auto.
  - eexists. split; [reflexivity|]. split; [reflexivity|]. intros [p Hp]. exfalso. exact (HM p Hp).
Qed.

Lemma mapM_nth : forall {A B} (f : A -> res B) l r, mapM f l = Ok r -> length r = length l /\ forall i x, nth_error l i = Some x -> exists y, nth_error r i = Some y /\ f x = Ok y.
Proof.
  intros A B f. induction l as [|a l IH]; intros r H; cbn [mapM] in H; [injection H as <-; split; [reflexivity|intros [|i] x Q; discriminate Q]|].
  apply bind_ok in H as [b [H1 H]]. apply bind_ok in H as [r' [H2 H]]. injection H as <-. destruct (IH r' H2) as [L N]. split; [cbn [length]; congruence|].
  intros [|i] x Q; [injection Q as <-; exists b; auto|apply N; exact Q].
Qed.

(** What addFeature computes, and that it leaves the other features alone. *)
Theorem added_feature : forall ta cb d name args ta', add_feature ta cb d name args = Ok ta' ->
  ta_sa ta' = ta_sa ta /\ (forall other, other <> name -> feature_values ta' other = feature_values ta other) /\
  exists vs, has_feature ta' name vs /\
    forall p v, attached ta' vs p v -> exists row, cb row = Ok v /\ Forall2 (fun a x => exists V, feature_values ta a = Ok V /\ attached ta V p x) args row.
Proof.
  intros ta cb d name args ta' H. unfold add_feature in H. apply bind_ok in H as [cols [HA H]]. apply bind_ok in H as [vs [HV H]]. injection H as <-.
  split; [reflexivity|]. split; [intros other N; unfold feature_values; cbn [set_feature ta_attrs]; rewrite (dget_set_other _ str_eqb_ok) by auto; reflexivity|].
  destruct (mapM_nth _ _ _ HV) as [LV NV]. rewrite seq_length in LV. exists vs. split.
  - split; [|exact LV]. unfold feature_values. cbn [set_feature ta_attrs]. rewrite (dget_set_same _ str_eqb_ok). reflexivity.
  - intros p v [r [E1 E2]]. cbn [set_feature ta_sa] in E1. assert (R : r < length (sa_SA (ta_sa ta))) by (apply nth_error_Some; congruence).
    destruct (NV r r) as [y [Y1 Y2]]; [rewrite (nth_error_nth' _ 0) by (rewrite seq_length; exact R); rewrite seq_nth by exact R; reflexivity|].
    rewrite E2 in Y1. injection Y1 as <-. apply bind_ok in Y2 as [row [HR HC]]. exists row. split; [exact HC|].
    clear - HA HR E1. revert cols row HA HR. induction args as [|a args IH]; intros cols row HA HR; cbn [mapM] in HA.
    + injection HA as <-. cbn [mapM] in HR. injection HR as <-. constructor.
    + apply bind_ok in HA as [V [HA1 HA]]. apply bind_ok in HA as [cols' [HA2 HA]]. injection HA as <-. cbn [mapM] in HR.
      apply bind_ok in HR as [x [HR1 HR]]. apply bind_ok in HR as [row' [HR2 HR]]. injection HR as <-. constructor; [|eapply IH; eassumption].
      exists V. split; [exact HA1|]. exists r. split; [exact E1|]. destruct (nth_error V r); [injection HR1 as <-; reflexivity|discriminate].
Qed.

Theorem added_feature_sa : forall ta cb d name ta', add_feature_sa ta cb d name = Ok ta' ->
  ta_sa ta' = ta_sa ta /\ (forall other, other <> name -> feature_values ta' other = feature_values ta other) /\
  exists vs, cb ta = Ok vs /\ feature_values ta' name = Ok vs.
Proof.
  intros ta cb d name ta' H. unfold add_feature_sa in H. apply bind_ok in H as [vs [HV H]]. injection H as <-.
  split; [reflexivity|]. split; [intros other N; unfold feature_values; cbn [set_feature ta_attrs]; rewrite (dget_set_other _ str_eqb_ok) by auto; reflexivity|].
  exists vs. split; [exact HV|]. unfold feature_values. cbn [set_feature ta_attrs]. rewrite (dget_set_same _ str_eqb_ok). reflexivity.
Qed.

(** ** The printed table *)
Theorem printed_rows : forall u toks ta stop maxlen rows, built u toks ta -> table_rows ta 0 stop maxlen = Ok rows ->
  map (fun x => fst (fst x)) rows = (match stop with Some e => firstn e (sa_SA (ta_sa ta)) | None => sa_SA (ta_sa ta) end) /\
  forall p txt feats, In (p, txt, feats) rows -> (exists whole, repr_string ta p maxlen = Ok whole /\ txt = firstn maxlen whole) /\
    Forall2 (fun name x => fst x = name /\ exists V, feature_values ta name = Ok V /\ attached ta V p (snd x)) (ta_features ta) feats.
Proof.
  intros u toks ta stop maxlen rows B H. destruct (built_inv _ _ _ B) as [HS _]. destruct (array_ids _ _ HS) as [_ [EI [LS _]]].
  assert (L1 : length (sa_string (ta_sa ta)) = length toks) by (apply mapM_nth in EI as [L _]; exact L).
  unfold table_rows in H. set (e := match stop with Some e => e | None => length (sa_string (ta_sa ta)) end) in *. unfold slice in H. cbn [skipn] in H. rewrite Nat.sub_0_r in H.
  assert (EP : firstn e (sa_SA (ta_sa ta)) = match stop with Some e => firstn e (sa_SA (ta_sa ta)) | None => sa_SA (ta_sa ta) end).
  { unfold e. destruct stop; [reflexivity|]. apply firstn_all2. lia. }
  rewrite <- EP. set (part := firstn e (sa_SA (ta_sa ta))) in *.
  assert (NP : forall i p, nth_error part i = Some p -> nth_error (sa_SA (ta_sa ta)) i = Some p).
  { intros i p Q. change part with (slice (sa_SA (ta_sa ta)) 0 e) in Q. apply nth_error_slice in Q. apply Q. }
  clearbody part. clear EP. assert (G : forall k, (forall i p, nth_error part i = Some p -> nth_error (sa_SA (ta_sa ta)) (k + i) = Some p) ->
    forall rows, mapM (fun '(i, p) => suffix <- repr_string ta p maxlen ;;
      feats <- mapM (fun name => vs <- feature_values ta name ;; match nth_error vs i with Some v => Ok (name, v) | None => Raise IndexError end) (ta_features ta) ;;
      Ok (p, firstn maxlen suffix, feats)) (combine (seq k (length part)) part) = Ok rows ->
    map (fun x => fst (fst x)) rows = part /\
    forall p txt feats, In (p, txt, feats) rows -> (exists whole, repr_string ta p maxlen = Ok whole /\ txt = firstn maxlen whole) /\
      Forall2 (fun name x => fst x = name /\ exists V, feature_values ta name = Ok V /\ attached ta V p (snd x)) (ta_features ta) feats).
  { clear. induction part as [|p part IH]; intros k NP rows H; cbn [length seq combine mapM] in H.
    - injection H as <-. split; [reflexivity|intros ? ? ? []].
    - apply bind_ok in H as [row [H1 H]]. apply bind_ok in H as [rows' [H2 H]]. injection H as <-.
      apply bind_ok in H1 as [suf [HR H1]]. apply bind_ok in H1 as [fe [HF H1]]. injection H1 as <-.
      destruct (IH (S k)) with (rows := rows') as [I1 I2]; [intros i q Q; specialize (NP (S i) q Q); rewrite Nat.add_succ_r in NP; exact NP|exact H2|].
      split; [cbn [map fst]; rewrite I1; reflexivity|]. intros q txt feats [Q|Q]; [|apply I2; exact Q]. injection Q as <- <- <-. split; [eauto|].
      clear - HF NP. revert fe HF. induction (ta_features ta) as [|name names IH]; intros fe HF; cbn [mapM] in HF; [injection HF as <-; constructor|].
      apply bind_ok in HF as [x [X1 HF]]. apply bind_ok in HF as [fe' [X2 HF]]. injection HF as <-. constructor; [|apply IH; exact X2].
      apply bind_ok in X1 as [V [V1 X1]]. destruct (nth_error V k) as [v|] eqn:EV; [|discriminate]. injection X1 as <-. split; [reflexivity|].
      exists V. split; [exact V1|]. exists k. split; [specialize (NP 0 p eq_refl); rewrite Nat.add_0_r in NP; exact NP|exact EV]. }
  apply (G 0); [exact NP|exact H].
Qed.

(** ** Saving and loading *)
Definition attrs_named (ta : textarray) : Prop := forall name, In name (map fst (ta_attrs ta)) <-> In name (ta_features ta).

Lemma keys_set : forall {V} k (v : V) d x, In x (map fst (dset str_eqb k v d)) <-> x = k \/ In x (map fst d).
Proof.
  intros V k v d x. split.
  - induction d as [|[k' v'] d IH]; cbn [dset map fst]; [intros [<-|[]]; auto|]. destruct (str_eqb k k') eqn:E; cbn [map fst In].
    + apply str_eqb_ok in E. subst. intuition.
    + intuition.
  - induction d as [|[k' v'] d IH]; cbn [dset map fst]; [intros [->|[]]; left; reflexivity|]. destruct (str_eqb k k') eqn:E; cbn [map fst In].
    + apply str_eqb_ok in E. subst. intuition.
    + intuition.
Qed.

Lemma built_named : forall u toks ta, built u toks ta -> attrs_named ta.
Proof.
  assert (S : forall ta name f, attrs_named ta -> attrs_named (set_feature ta name f)).
  { intros ta name f H x. unfold set_feature. cbn [ta_attrs ta_features]. rewrite keys_set, in_app_iff. cbn [In]. specialize (H x). intuition. }
  intros u toks ta H. induction H as [t ta HT H|ta cb d name ta' H IH N E|ta cb d name args ta' H IH N E].
  - unfold create_array in H. apply bind_ok in H as [tk [_ H]]. apply bind_ok in H as [sa [_ H]]. unfold add_feature_sa, lcp_callback in H. cbn [bind] in H. injection H as <-.
    apply S. intros x. cbn [ta_attrs ta_features map]. tauto.
  - unfold add_feature_sa in E. apply bind_ok in E as [vals [_ E]]. injection E as <-. apply S. exact IH.
  - unfold add_feature in E. apply bind_ok in E as [ar [_ E]]. apply bind_ok in E as [vals [_ E]]. injection E as <-. apply S. exact IH.
Qed.

(** A loaded array agrees with the saved one: same fields, and every feature with the same values and
    default, looked up as those of addFeatureSA are. *)
Definition loaded_like (ta ta' : textarray) : Prop :=
  ta_unit ta' = ta_unit ta /\ sa_voc (ta_sa ta') = sa_voc (ta_sa ta) /\ sa_string (ta_sa ta') = sa_string (ta_sa ta) /\ sa_SA (ta_sa ta') = sa_SA (ta_sa ta) /\
  ta_vocSize ta' = ta_vocSize ta /\ ta_nbSentences ta' = ta_nbSentences ta /\ ta_features ta' = ta_features ta /\
  forall name, dget str_eqb name (ta_attrs ta') = match dget str_eqb name (ta_attrs ta) with
    | Some f => Some {| ft_values := ft_values f; ft_default := ft_default f; ft_truthy := false |} | None => None end.

Lemma sentences_kept : forall toks sa, suffix_array toks = Ok sa ->
  length (filter (Nat.eqb (match index_of [newline] (sa_voc sa) with Some i => S i | None => 0 end)) (sa_string sa)) = count_str [newline] toks.
Proof.
  intros toks sa H. destruct (array_ids _ _ H) as [EV [EI _]]. rewrite EV. revert EI. generalize (sa_string sa). generalize (sorted_set toks) as voc. clear. unfold count_str.
  intros voc. induction toks as [|t toks IH]; intros ids H; cbn [mapM] in H; [injection H as <-; reflexivity|].
  apply bind_ok in H as [i [H1 H]]. apply bind_ok in H as [ids' [H2 H]]. injection H as <-. cbn [filter].
  unfold tok_id in H1. destruct (index_of t voc) as [k|] eqn:E; [|discriminate]. injection H1 as <-.
  replace ((match index_of [newline] voc with Some i => S i | None => 0 end) =? S k) with (str_eqb [newline] t).
  - destruct (str_eqb [newline] t); cbn [length]; rewrite (IH _ H2); reflexivity.
  - destruct (str_eqb [newline] t) eqn:Q.
    + apply str_eqb_ok in Q. subst t. rewrite E. symmetry. apply Nat.eqb_refl.
    + symmetry. apply Nat.eqb_neq. destruct (index_of [newline] voc) as [j|] eqn:J; [|discriminate]. intros R. injection R as ->.
      apply index_of_Some in E, J. rewrite E in J. injection J as ->. rewrite (proj2 (str_eqb_ok _ _) eq_refl) in Q. discriminate.
Qed.

Definition saved_attr (ta : textarray) (name : str) : res (list jval * jval) :=
  match dget str_eqb name (ta_attrs ta) with Some f => Ok (ft_values f, ft_default f) | None => Raise AttributeError end.

Lemma reload : forall ta names data ta0, mapM (saved_attr ta) names = Ok data -> exists ta1,
  foldM (fun ta '(name, (vals, default)) => add_feature_sa ta (fun _ => Ok vals) default name) (combine names data) ta0 = Ok ta1 /\
  ta_unit ta1 = ta_unit ta0 /\ ta_sa ta1 = ta_sa ta0 /\ ta_vocSize ta1 = ta_vocSize ta0 /\ ta_nbSentences ta1 = ta_nbSentences ta0 /\ ta_features ta1 = ta_features ta0 ++ names /\
  forall x, dget str_eqb x (ta_attrs ta1) = if in_dec str_dec x names then
      match dget str_eqb x (ta_attrs ta) with Some f => Some {| ft_values := ft_values f; ft_default := ft_default f; ft_truthy := false |} | None => None end
    else dget str_eqb x (ta_attrs ta0).
Proof.
  intros ta. induction names as [|name names IH]; intros data ta0 H; cbn [mapM] in H.
  - injection H as <-. exists ta0. cbn [combine foldM]. rewrite app_nil_r. repeat split; reflexivity.
  - apply bind_ok in H as [[vals d] [H1 H]]. apply bind_ok in H as [data' [H2 H]]. injection H as <-. cbn [combine foldM]. unfold add_feature_sa at 1. cbn [bind].
    destruct (IH data' (set_feature ta0 name {| ft_values := vals; ft_default := d; ft_truthy := false |}) H2) as [ta1 [E [A1 [A2 [A3 [A4 [A5 A6]]]]]]].
    exists ta1. split; [exact E|]. split; [exact A1|]. split; [exact A2|]. split; [exact A3|]. split; [exact A4|]. split; [rewrite A5; cbn [set_feature ta_features]; rewrite <- app_assoc; reflexivity|].
    intros x. rewrite A6. destruct (in_dec str_dec x names) as [I|I].
    + destruct (in_dec str_dec x (name :: names)) as [J|J]; [reflexivity|]. exfalso. apply J. right. exact I.
    + cbn [set_feature ta_attrs]. destruct (in_dec str_dec x (name :: names)) as [J|J].
      * destruct J as [->|J]; [|contradiction]. rewrite (dget_set_same _ str_eqb_ok). unfold saved_attr in H1. destruct (dget str_eqb x (ta_attrs ta)); [|discriminate]. injection H1 as <- <-. reflexivity.
      * apply (dget_set_other _ str_eqb_ok). intros ->. apply J. left. reflexivity.
Qed.

Lemma built_sentences : forall u toks ta, built u toks ta -> ta_nbSentences ta = count_str [newline] toks.
Proof.
  intros u toks ta H. induction H as [t ta HT H|ta cb d name ta' H IH N E|ta cb d name args ta' H IH N E].
  - destruct (array_made _ _ _ _ H) as [toks' [E [_ [_ [Q _]]]]]. rewrite HT in E. injection E as <-. exact Q.
  - unfold add_feature_sa in E. apply bind_ok in E as [vals [_ E]]. injection E as <-. exact IH.
  - unfold add_feature in E. apply bind_ok in E as [ar [_ E]]. apply bind_ok in E as [vals [_ E]]. injection E as <-. exact IH.
Qed.

Theorem save_load : forall u toks ta filename, built u toks ta -> ends_in_gz filename = true ->
  exists d ta', to_file ta filename = Ok d /\ from_file d = Ok ta' /\ loaded_like ta ta'.
Proof.
  intros u toks ta filename B G. pose proof (built_named _ _ _ B) as N. destruct (built_inv _ _ _ B) as [HS _].
  assert (exists data, mapM (saved_attr ta) (ta_features ta) = Ok data) as [data HD].
  { assert (F : forall x, In x (ta_features ta) -> In x (map fst (ta_attrs ta))) by (intros x Hx; apply N; exact Hx). revert F. generalize (ta_features ta).
    induction l as [|x l IH]; intros F; [exists []; reflexivity|]. destruct IH as [data E]; [intros y Hy; apply F; right; exact Hy|].
    cbn [mapM]. unfold saved_attr at 1. destruct (dget str_eqb x (ta_attrs ta)) as [f|] eqn:Q.
    - cbn [bind]. rewrite E. cbn [bind]. eauto.
    - exfalso. specialize (F x (or_introl eq_refl)). apply (dget_None _ str_eqb_ok) in Q. contradiction. }
  unfold to_file. fold (saved_attr ta). rewrite HD. cbn [bind]. rewrite G. eexists.
  unfold from_file. destruct (reload ta (ta_features ta) data {| ta_unit := ta_unit ta;
       ta_sa := {| sa_voc := sa_voc (ta_sa ta); sa_string := sa_string (ta_sa ta); sa_SA := sa_SA (ta_sa ta); sa_LCP := [] |};
       ta_vocSize := ta_vocSize ta; ta_nbSentences := length (filter (Nat.eqb (match index_of [newline] (sa_voc (ta_sa ta)) with Some i => S i | None => 0 end)) (sa_string (ta_sa ta)));
       ta_attrs := []; ta_features := [] |} HD) as [ta1 [E [A1 [A2 [A3 [A4 [A5 A6]]]]]]].
  exists ta1. split; [reflexivity|]. split; [exact E|]. unfold loaded_like. rewrite A1, A2, A3, A4, A5. cbn [ta_unit ta_sa sa_voc sa_string sa_SA ta_vocSize ta_nbSentences ta_features app].
  rewrite (sentences_kept toks _ HS), (built_sentences _ _ _ B). repeat split. intros name. rewrite A6. destruct (in_dec str_dec name (ta_features ta)) as [I|I]; [reflexivity|].
  cbn [ta_attrs dget]. destruct (dget str_eqb name (ta_attrs ta)) as [f|] eqn:Q; [|reflexivity]. exfalso. apply I. apply N. apply (dget_In _ str_eqb_ok) in Q. apply (in_map fst) in Q. exact Q.
Qed.

Lemma loaded_lcp : forall ta ta', loaded_like ta ta' -> lcp_values ta' = lcp_values ta.
Proof. intros ta ta' L. unfold lcp_values. destruct L as [_ [_ [_ [_ [_ [_ [_ L]]]]]]]. rewrite L. destruct (dget str_eqb (lit "LCP") (ta_attrs ta)); reflexivity. Qed.
Lemma loaded_values : forall ta ta' name, loaded_like ta ta' -> feature_values ta' name = feature_values ta name.
Proof. intros ta ta' name L. unfold feature_values. destruct L as [_ [_ [_ [_ [_ [_ [_ L]]]]]]]. rewrite L. destruct (dget str_eqb name (ta_attrs ta)); reflexivity. Qed.
Lemma loaded_find_one : forall ta ta' sub, loaded_like ta ta' -> ta_find_one ta' sub = ta_find_one ta sub.
Proof.
  intros ta ta' sub L. unfold ta_find_one. rewrite (loaded_lcp _ _ L). destruct L as [E1 [E2 [E3 [E4 _]]]]. rewrite E1. unfold find_one. rewrite E2, E3, E4. reflexivity.
Qed.
Lemma mapM_values : forall ta ta' names, loaded_like ta ta' -> mapM (feature_values ta') names = mapM (feature_values ta) names.
Proof. intros ta ta' names L. induction names as [|x names IH]; [reflexivity|]. cbn [mapM]. rewrite (loaded_values _ _ x L), IH. reflexivity. Qed.

Theorem loaded_find : forall ta ta' sub names, loaded_like ta ta' -> find_features ta' sub names = find_features ta sub names.
Proof.
  intros ta ta' sub names L. unfold find_features. rewrite (loaded_lcp _ _ L), (loaded_find_one _ _ _ L), (mapM_values _ _ _ L).
  destruct L as [E1 [E2 [E3 [E4 _]]]]. rewrite E1, E2, E3, E4. reflexivity.
Qed.
Theorem loaded_repr : forall ta ta' p k, loaded_like ta ta' -> repr_string ta' p k = repr_string ta p k.
Proof. intros ta ta' p k L. unfold repr_string, repr_ids. destruct L as [E1 [E2 [E3 [E4 _]]]]. rewrite E1, E2, E3. reflexivity. Qed.
Theorem loaded_lookup : forall ta ta' name sub f, loaded_like ta ta' -> dget str_eqb name (ta_attrs ta) = Some f -> ft_truthy f = false ->
  lookup ta' name sub = lookup ta name sub.
Proof.
  intros ta ta' name sub f L H T. unfold lookup. rewrite (loaded_find_one _ _ _ L). destruct L as [_ [_ [_ [_ [_ [_ [_ L]]]]]]]. rewrite L, H. cbn [ft_default ft_truthy ft_values]. rewrite T. reflexivity.
Qed.
