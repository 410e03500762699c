(** General lemmas about the vocabulary of Py.v. *)
From Verif Require Import Py.
From Coq Require Export Permutation Sorted.

Lemma bind_ok : forall {A B} (m : res A) (f : A -> res B) b,
  bind m f = Ok b <-> exists a, m = Ok a /\ f a = Ok b.
Proof.
  intros. destruct m; simpl; split; intros.
  - exists a. auto.
  - destruct H as [a' [H1 H2]]. congruence.
  - discriminate.
  - destruct H as [a' [H1 H2]]. discriminate.
Qed.

Ltac inv_bind H :=
  let a := fresh "a" in let E := fresh "E" in
  apply bind_ok in H as [a [E H]].

Lemma foldM_app : forall {A B} (f : B -> A -> res B) l1 l2 b,
  foldM f (l1 ++ l2) b = bind (foldM f l1 b) (foldM f l2).
Proof.
  induction l1; simpl; intros; [reflexivity|].
  destruct (f b a); simpl; auto.
Qed.

Lemma foldM_inv : forall {A B} (f : B -> A -> res B) (P : list A -> B -> Prop) l,
  forall b0, P [] b0 ->
  (forall pre x b, (exists post, l = pre ++ x :: post) -> P pre b ->
     exists b', f b x = Ok b' /\ P (pre ++ [x]) b') ->
  exists b', foldM f l b0 = Ok b' /\ P l b'.
Proof.
  intros A B f P l.
  assert (G : forall suf pre b0, l = pre ++ suf -> P pre b0 ->
     (forall pre x b, (exists post, l = pre ++ x :: post) -> P pre b ->
        exists b', f b x = Ok b' /\ P (pre ++ [x]) b') ->
     exists b', foldM f suf b0 = Ok b' /\ P l b').
  { induction suf as [|x suf IH]; intros pre b0 E HP Hs; simpl.
    - exists b0. split; auto. rewrite E, app_nil_r. assumption.
    - destruct (Hs pre x b0) as [b' [E1 P1]]; eauto. rewrite E1. simpl.
      apply IH with (pre := pre ++ [x]); auto. rewrite <- app_assoc. assumption. }
  intros. apply G with (pre := []); auto.
Qed.

Lemma foldM_ok_fold_left : forall {A B} (f : B -> A -> res B) (g : B -> A -> B) l b,
  (forall b x, In x l -> f b x = Ok (g b x)) -> foldM f l b = Ok (fold_left g l b).
Proof.
  induction l; simpl; intros; [reflexivity|].
  rewrite H by auto. simpl. apply IHl. intros. apply H. auto.
Qed.

Lemma mapM_ok : forall {A B} (f : A -> res B) (g : A -> B) l,
  (forall x, In x l -> f x = Ok (g x)) -> mapM f l = Ok (map g l).
Proof.
  induction l; simpl; intros; [reflexivity|].
  rewrite H by auto. simpl. rewrite IHl by auto. reflexivity.
Qed.

Lemma mapM_Ok_Forall2 : forall {A B} (f : A -> res B) l l',
  mapM f l = Ok l' <-> Forall2 (fun x y => f x = Ok y) l l'.
Proof.
  induction l; simpl; intros; split; intros H.
  - injection H as <-. constructor.
  - inversion H. reflexivity.
  - inv_bind H. inv_bind H. injection H as <-. constructor; auto. apply IHl; assumption.
  - inversion H; subst. rewrite H2. simpl. apply IHl in H4. rewrite H4. reflexivity.
Qed.

Lemma mapM_ex : forall {A B} (f : A -> res B) l,
  (forall x, In x l -> exists y, f x = Ok y) -> exists l', mapM f l = Ok l'.
Proof.
  induction l; simpl; intros; [eauto|].
  destruct (H a) as [y Hy]; auto. destruct IHl as [l' Hl']; auto.
  rewrite Hy, Hl'. simpl. eauto.
Qed.

(** Arrays *)
Lemma upd_length : forall {A} (l : list A) i x, length (upd l i x) = length l.
Proof. induction l; destruct i; simpl; intros; auto. Qed.

Lemma nth_error_upd : forall {A} (l : list A) i j x,
  nth_error (upd l i x) j = if (i =? j) then (if i <? length l then Some x else None) else nth_error l j.
Proof.
  induction l; intros; simpl.
  - destruct j; destruct (i =? _); reflexivity.
  - destruct i, j; simpl; auto. rewrite IHl. reflexivity.
Qed.

Lemma aget_ok : forall {A} (l : list A) i x, aget l i = Ok x <-> nth_error l i = Some x.
Proof. unfold aget; intros; destruct (nth_error l i); split; congruence. Qed.

Lemma aset_ok : forall {A} (l : list A) i x, i < length l -> aset l i x = Ok (upd l i x).
Proof. unfold aset; intros. apply Nat.ltb_lt in H. rewrite H. reflexivity. Qed.

Lemma nth_error_lt_ex : forall {A} (l : list A) i, i < length l -> exists x, nth_error l i = Some x.
Proof. intros. destruct (nth_error l i) eqn:E; eauto. apply nth_error_None in E. lia. Qed.

(** Dictionaries *)
Section DictLemmas.
  Context {K V : Type} (eqb : K -> K -> bool).
  Hypothesis eqb_ok : forall a b, eqb a b = true <-> a = b.

  Lemma eqb_refl' : forall a, eqb a a = true.
  Proof. intros. apply eqb_ok. reflexivity. Qed.
  Lemma eqb_neq : forall a b, a <> b -> eqb a b = false.
  Proof. intros. destruct (eqb a b) eqn:E; auto. apply eqb_ok in E. contradiction. Qed.
  Lemma eqb_dec : forall a b : K, {a = b} + {a <> b}.
  Proof.
    intros. destruct (eqb a b) eqn:E; [left; apply eqb_ok; assumption | right; intros ->].
    rewrite eqb_refl' in E. discriminate.
  Qed.

  Lemma dget_set_same : forall k v (d : list (K * V)), dget eqb k (dset eqb k v d) = Some v.
  Proof.
    induction d as [|[k' v'] d IH]; simpl.
    - rewrite eqb_refl'. reflexivity.
    - destruct (eqb k k') eqn:E; simpl; rewrite E; auto.
  Qed.

  Lemma dget_set_other : forall k k' v (d : list (K * V)), k <> k' ->
    dget eqb k' (dset eqb k v d) = dget eqb k' d.
  Proof.
    induction d as [|[k1 v1] d IH]; simpl; intros N.
    - rewrite eqb_neq; auto.
    - destruct (eqb k k1) eqn:E; simpl.
      + apply eqb_ok in E. subst k1. rewrite !eqb_neq; auto.
      + destruct (eqb k' k1); auto.
  Qed.

  Lemma dget_set : forall k k' v (d : list (K * V)),
    dget eqb k' (dset eqb k v d) = if eqb k k' then Some v else dget eqb k' d.
  Proof.
    intros. destruct (eqb k k') eqn:E.
    - apply eqb_ok in E. subst. apply dget_set_same.
    - apply dget_set_other. intros ->. rewrite eqb_refl' in E. discriminate.
  Qed.

  Lemma dget_In : forall k v (d : list (K * V)), dget eqb k d = Some v -> In (k, v) d.
  Proof.
    induction d as [|[k' v'] d IH]; simpl; intros H; [discriminate|].
    destruct (eqb k k') eqn:E.
    - apply eqb_ok in E. left. congruence.
    - right. auto.
  Qed.

  Lemma In_dget : forall k v (d : list (K * V)), NoDup (map fst d) -> In (k, v) d -> dget eqb k d = Some v.
  Proof.
    induction d as [|[k' v'] d IH]; simpl; intros N H; [contradiction|].
    inversion N; subst. destruct H as [H|H].
    - injection H as -> ->. rewrite eqb_refl'. reflexivity.
    - destruct (eqb k k') eqn:E; auto. apply eqb_ok in E. subst. exfalso. apply H2.
      apply (in_map fst) in H. assumption.
  Qed.

  Lemma dget_None : forall k (d : list (K * V)), dget eqb k d = None <-> ~ In k (map fst d).
  Proof.
    induction d as [|[k' v'] d IH]; simpl.
    - split; auto.
    - destruct (eqb k k') eqn:E.
      + apply eqb_ok in E. split; intros; [discriminate|]. exfalso; apply H; auto.
      + rewrite IH. split; intros; [intros [H1|H1]; auto; subst; rewrite eqb_refl' in E; discriminate | auto].
  Qed.

  Lemma dget_Some_key : forall k (d : list (K * V)), In k (map fst d) -> exists v, dget eqb k d = Some v.
  Proof.
    intros. destruct (dget eqb k d) eqn:E; eauto. apply dget_None in E. contradiction.
  Qed.

  Lemma dset_new : forall k v (d : list (K * V)), ~ In k (map fst d) -> dset eqb k v d = d ++ [(k, v)].
  Proof.
    induction d as [|[k' v'] d IH]; simpl; intros; [reflexivity|].
    rewrite eqb_neq by (intros ->; auto). rewrite IH; auto.
  Qed.

  Lemma dset_keys_old : forall k v (d : list (K * V)), In k (map fst d) -> map fst (dset eqb k v d) = map fst d.
  Proof.
    induction d as [|[k' v'] d IH]; simpl; intros; [contradiction|].
    destruct (eqb k k') eqn:E; simpl; [reflexivity|]. f_equal. apply IH.
    destruct H; auto. subst. rewrite eqb_refl' in E. discriminate.
  Qed.

  Lemma dset_keys : forall k v (d : list (K * V)),
    map fst (dset eqb k v d) = if existsb (eqb k) (map fst d) then map fst d else map fst d ++ [k].
  Proof.
    induction d as [|[k' v'] d IH]; simpl; intros; [reflexivity|].
    destruct (eqb k k') eqn:E; simpl; [reflexivity|]. rewrite IH.
    destruct (existsb _ _); reflexivity.
  Qed.

  Lemma existsb_eqb : forall k l, existsb (eqb k) l = true <-> In k l.
  Proof.
    intros. rewrite existsb_exists. split.
    - intros [x [H1 H2]]. apply eqb_ok in H2. subst. assumption.
    - intros. exists k. split; auto. apply eqb_refl'.
  Qed.

  Lemma dset_NoDup : forall k v (d : list (K * V)), NoDup (map fst d) -> NoDup (map fst (dset eqb k v d)).
  Proof.
    intros. rewrite dset_keys. destruct (existsb (eqb k) (map fst d)) eqn:E; auto.
    assert (~ In k (map fst d)). { intro C. apply existsb_eqb in C. congruence. }
    clear E. induction (map fst d); simpl.
    - constructor; [simpl; auto | constructor].
    - inversion H; subst. constructor.
      + rewrite in_app_iff. simpl in *. intros [?|[?|[]]]; subst; auto.
      + apply IHl; auto. simpl in H0. auto.
  Qed.

  Lemma dset_In_key : forall k k' v (d : list (K * V)),
    In k' (map fst (dset eqb k v d)) <-> k' = k \/ In k' (map fst d).
  Proof.
    intros. rewrite dset_keys. destruct (existsb (eqb k) (map fst d)) eqn:E.
    - apply existsb_eqb in E. split; intros; auto. destruct H; subst; auto.
    - rewrite in_app_iff. simpl. intuition.
  Qed.

  Lemma dget_app : forall k (d1 d2 : list (K * V)),
    dget eqb k (d1 ++ d2) = match dget eqb k d1 with Some v => Some v | None => dget eqb k d2 end.
  Proof. induction d1 as [|[k' v'] d IH]; simpl; intros; auto. destruct (eqb k k'); auto. Qed.

  Lemma dmem_In : forall k (d : list (K * V)), dmem eqb k d = true <-> In k (map fst d).
  Proof.
    unfold dmem. intros. destruct (dget eqb k d) eqn:E.
    - split; auto. intros _. apply dget_In in E. apply (in_map fst) in E. assumption.
    - apply dget_None in E. split; intros; [discriminate | contradiction].
  Qed.

  Lemma dgetE_ok : forall k v (d : list (K * V)), dgetE eqb k d = Ok v <-> dget eqb k d = Some v.
  Proof. unfold dgetE. intros. destruct (dget eqb k d); split; congruence. Qed.

  Lemma ddel_In : forall k k' (d : list (K * V)), NoDup (map fst d) ->
    (In k' (map fst (ddel eqb k d)) <-> k' <> k /\ In k' (map fst d)).
  Proof.
    induction d as [|[k1 v1] d IH]; simpl; intros N; [intuition|].
    inversion N; subst. destruct (eqb k k1) eqn:E.
    - apply eqb_ok in E. subst k1. split; intros.
      + split; auto. intros ->. contradiction.
      + destruct H as [H [H'|H']]; auto. congruence.
    - simpl. rewrite IH by assumption. split; intros.
      + destruct H as [H|H]; [subst; split; auto; intros ->; rewrite eqb_refl' in E; discriminate | intuition].
      + intuition.
  Qed.

  Lemma ddel_NoDup : forall k (d : list (K * V)), NoDup (map fst d) -> NoDup (map fst (ddel eqb k d)).
  Proof.
    induction d as [|[k1 v1] d IH]; simpl; intros N; [constructor|].
    inversion N; subst. destruct (eqb k k1) eqn:E; auto.
    simpl. constructor; auto. rewrite ddel_In by assumption. intuition.
  Qed.

  Lemma dget_ddel : forall k k' (d : list (K * V)), NoDup (map fst d) ->
    dget eqb k' (ddel eqb k d) = if eqb k k' then None else dget eqb k' d.
  Proof.
    induction d as [|[k1 v1] d IH]; simpl; intros N.
    - destruct (eqb k k'); reflexivity.
    - inversion N; subst. destruct (eqb k k1) eqn:E.
      + apply eqb_ok in E. subst k1. destruct (eqb k k') eqn:E1.
        * apply eqb_ok in E1. subst. apply dget_None. assumption.
        * rewrite (eqb_neq k' k); auto. intros ->. rewrite eqb_refl' in E1. discriminate.
      + simpl. rewrite IH by assumption. destruct (eqb k' k1) eqn:E1; auto.
        apply eqb_ok in E1. subst. rewrite E. reflexivity.
  Qed.
End DictLemmas.

Lemma nat_eqb_ok : forall a b, Nat.eqb a b = true <-> a = b.
Proof. exact Nat.eqb_eq. Qed.

Lemma str_eqb_ok : forall a b, str_eqb a b = true <-> a = b.
Proof.
  induction a; destruct b; simpl; split; intros; try congruence.
  - apply andb_true_iff in H as [H1 H2]. apply N.eqb_eq in H1. apply IHa in H2. congruence.
  - injection H as -> ->. rewrite N.eqb_refl. apply IHa. reflexivity.
Qed.

Lemma str_eqb_refl : forall a, str_eqb a a = true.
Proof. intros. apply str_eqb_ok. reflexivity. Qed.
Lemma str_eqb_neq : forall a b, str_eqb a b = false <-> a <> b.
Proof.
  intros. split.
  - intros H ->. rewrite str_eqb_refl in H. discriminate.
  - apply eqb_neq. apply str_eqb_ok.
Qed.
Lemma str_dec : forall a b : str, {a = b} + {a <> b}.
Proof. apply (eqb_dec str_eqb str_eqb_ok). Qed.

(** Lists *)
Lemma NoDup_app_iff : forall {A} (l1 l2 : list A),
  NoDup (l1 ++ l2) <-> NoDup l1 /\ NoDup l2 /\ (forall x, In x l1 -> ~ In x l2).
Proof.
  induction l1; simpl; intros; split; intros.
  - split; [constructor | split; auto].
  - intuition.
  - inversion H; subst. apply IHl1 in H3 as [H3 [H4 H5]]. split; [|split]; auto.
    + constructor; auto. rewrite in_app_iff in H2. auto.
    + intros x [->|Hx]; auto. rewrite in_app_iff in H2. auto.
  - destruct H as [H1 [H2 H3]]. inversion H1; subst. constructor.
    + rewrite in_app_iff. intros [H|H]; auto. apply (H3 a); auto.
    + apply IHl1. auto.
Qed.

Lemma str_join_snoc : forall sep l x, l <> [] -> str_join sep (l ++ [x]) = str_join sep l ++ sep ++ x.
Proof.
  induction l as [|a l IH]; intros; [congruence|].
  destruct l as [|b l].
  - reflexivity.
  - change (str_join sep ((a :: b :: l) ++ [x])) with (a ++ sep ++ str_join sep ((b :: l) ++ [x])).
    rewrite IH by discriminate. simpl. rewrite <- !app_assoc. reflexivity.
Qed.

Lemma skipn_nth_error : forall {A} (l : list A) i x,
  nth_error l i = Some x -> skipn i l = x :: skipn (S i) l.
Proof.
  induction l; intros; destruct i; simpl in *; try discriminate.
  - congruence.
  - apply IHl. assumption.
Qed.

Lemma firstn_S_nth : forall {A} (l : list A) i x,
  nth_error l i = Some x -> firstn (S i) l = firstn i l ++ [x].
Proof.
  induction l; intros; destruct i; simpl in *; try discriminate.
  - congruence.
  - f_equal. apply IHl. assumption.
Qed.

Lemma nth_error_firstn : forall {A} (l : list A) n i,
  nth_error (firstn n l) i = if i <? n then nth_error l i else None.
Proof.
  induction l; intros; destruct n, i; simpl; auto.
  - destruct (S i <? S n); reflexivity.
  - rewrite IHl. reflexivity.
Qed.

Lemma nth_error_skipn : forall {A} (l : list A) n i, nth_error (skipn n l) i = nth_error l (n + i).
Proof. induction l; intros; destruct n; simpl; auto. destruct i; reflexivity. Qed.

Lemma filter_none : forall {A} (f : A -> bool) l, (forall x, In x l -> f x = false) -> filter f l = [].
Proof. induction l; simpl; intros; auto. rewrite H by auto. auto. Qed.
Lemma filter_all : forall {A} (f : A -> bool) l, (forall x, In x l -> f x = true) -> filter f l = l.
Proof. induction l; simpl; intros; auto. rewrite H by auto. f_equal. auto. Qed.
Lemma flat_map_ext_In : forall {A B} (f g : A -> list B) l,
  (forall x, In x l -> f x = g x) -> flat_map f l = flat_map g l.
Proof. induction l; simpl; intros; auto. rewrite H by auto. f_equal. auto. Qed.
