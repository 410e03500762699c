(** Errors of Collation.create_from_dict (C46). *)
From Verif Require Import Py Lib TokenModel TokenSpec TokenProof OutputProof DictProof DictErrSpec.
Open Scope list_scope.

Lemma as_dict_all : forall ds, mapM as_dict (map JObj ds) = Ok ds.
Proof. induction ds as [|d ds IH]; [reflexivity|]. cbn [map mapM as_dict bind]. rewrite IH. reflexivity. Qed.
Lemma init_fails : forall ds t, In t ds -> dget str_eqb (lit "n") t = None -> dget str_eqb (lit "t") t = None -> mapM token_init ds = Raise TokenError.
Proof.
  induction ds as [|d ds IH]; intros t H N T; [destruct H|]. cbn [mapM]. destruct H as [->|H].
  - unfold token_init at 1. rewrite N, T. reflexivity.
  - rewrite (IH t H N T). unfold token_init. destruct (dget str_eqb (lit "n") d); [reflexivity|]. destruct (dget str_eqb (lit "t") d); reflexivity.
Qed.
Lemma str_fails : forall ts x, In x ts -> ~ is_text (fst x) -> mapM tok_str_of ts = Raise TypeError.
Proof.
  induction ts as [|y ts IH]; intros x H N; [destruct H|]. cbn [mapM]. destruct H as [->|H].
  - unfold tok_str_of at 1. destruct (fst x) eqn:E; try reflexivity. exfalso. apply N. eexists. reflexivity.
  - rewrite (IH x H N). unfold tok_str_of. destruct (fst y); reflexivity.
Qed.
Lemma init_all : forall ds, (forall t, In t ds -> In (lit "n") (map fst t) \/ In (lit "t") (map fst t)) ->
  exists ts, mapM token_init ds = Ok ts /\ forall t v, In t ds -> token_init t = Ok v -> In v ts.
Proof.
  induction ds as [|d ds IH]; intros H; [exists []; split; [reflexivity|intros t v []]|].
  destruct (IH (fun t Ht => H t (or_intror Ht))) as [ts [E P]].
  assert (exists x, token_init d = Ok x) as [x X].
  { unfold token_init. destruct (dget str_eqb (lit "n") d) eqn:E1; [eexists; reflexivity|]. destruct (dget str_eqb (lit "t") d) eqn:E2; [eexists; reflexivity|].
    apply (dget_None _ str_eqb_ok) in E1, E2. destruct (H d (or_introl eq_refl)); tauto. }
  exists (x :: ts). cbn [mapM]. rewrite X. cbn [bind]. rewrite E. split; [reflexivity|]. intros t v [->|Ht] Ev; [left; congruence|right; eapply P; eassumption].
Qed.
Lemma entry_raises : forall cc d e, keys_once d -> (forall l' d', In (lit "tokens", JArr l') d -> In (JObj d') l' -> keys_once d') -> entry_fails d e -> witness_init cc d = Raise e.
Proof.
  intros cc d e K KT F. unfold witness_init. destruct F as [H|sg v H1 H2 H3|sg ds t H1 H2 H3 H4 H5 H6|sg ds t v H1 H2 H3 H4 H5 H6 H7].
  - apply (dget_None _ str_eqb_ok) in H. rewrite H. reflexivity.
  - apply (key_iff _ _ _ K) in H1, H2. rewrite H1, H2. destruct v; try reflexivity. exfalso. apply H3. eexists. reflexivity.
  - apply (key_iff _ _ _ K) in H1, H3. apply key_absent in H2, H5, H6. rewrite H1, H2, H3, as_dict_all. cbn [bind]. rewrite (init_fails ds t H4 H5 H6). reflexivity.
  - assert (KD : keys_once t) by (apply (KT (map JObj ds)); [assumption|apply in_map; assumption]).
    apply (key_iff _ _ _ K) in H1, H3. apply key_absent in H2. rewrite H1, H2, H3, as_dict_all. cbn [bind]. destruct (init_all ds H4) as [ts [E P]]. rewrite E. cbn [bind].
    assert (X : token_init t = Ok (v, t)).
    { unfold token_init. destruct H6 as [H6|[N H6]]; apply (key_iff _ _ _ KD) in H6; [rewrite H6; reflexivity|]. apply key_absent in N. rewrite N, H6. reflexivity. }
    rewrite (str_fails ts (v, t) (P t _ H5 X) H7). reflexivity.
Qed.

(** The first entry that cannot be read decides which error is raised. *)
Theorem C46_errors : forall cc data limit l a d b c e, keys_once data -> In (lit "witnesses", JArr l) data -> entries_once l ->
  first_of limit l (a ++ JObj d :: b) -> Forall2 (entry_witness cc) a c -> entry_fails d e -> create_from_dict cc data limit = Raise e.
Proof.
  intros cc data limit l a d b c e N H EO F FA FE. apply (key_iff _ _ _ N) in H. unfold create_from_dict. rewrite H. apply first_prefix in F. rewrite <- F.
  assert (IN : forall v, In v (a ++ JObj d :: b) -> In v l) by (intros v Hv; rewrite F in Hv; apply prefix_incl in Hv; exact Hv).
  assert (FD : foldM (fun c0 v => d0 <- as_dict v ;; add_witness cc c0 d0) a collation_empty = Ok c).
  { apply read_fold. exists c. split; [reflexivity|].
    assert (IA : forall v, In v a -> In v l) by (intros v Hv; apply IN; rewrite in_app_iff; left; exact Hv). clear - FA EO IA.
    induction FA as [|v w a c E FA IH]; constructor; [|apply IH; intros; apply IA; right; assumption].
    assert (exists d0, v = JObj d0) as [d0 ->] by (destruct E; eauto). exists d0. split; [reflexivity|]. destruct (EO d0 (IA _ (or_introl eq_refl))) as [A B]. apply witness_read; assumption. }
  assert (G : forall (x : collation) p q c0 c1, foldM (fun c0 v => d0 <- as_dict v ;; add_witness cc c0 d0) p c0 = Ok c1 ->
    foldM (fun c0 v => d0 <- as_dict v ;; add_witness cc c0 d0) (p ++ q) c0 = foldM (fun c0 v => d0 <- as_dict v ;; add_witness cc c0 d0) q c1).
  { clear. intros _ p q. induction p as [|v p IH]; intros c0 c1 E; cbn [foldM app] in *; [injection E as <-; reflexivity|].
    apply bind_ok in E as [c2 [E1 E2]]. rewrite E1. cbn [bind]. apply IH. exact E2. }
  rewrite (G c a _ _ _ FD). cbn [foldM as_dict bind]. destruct (EO d (IN _ (in_elt (JObj d) a b))) as [K KT].
  unfold add_witness. rewrite (entry_raises cc d e K KT FE). reflexivity.
Qed.
Print Assumptions C46_errors.
Theorem C46_no_witnesses : forall cc data limit, ~ In (lit "witnesses") (map fst data) -> create_from_dict cc data limit = Raise KeyError.
Proof. intros cc data limit H. apply (dget_None _ str_eqb_ok) in H. unfold create_from_dict. rewrite H. reflexivity. Qed.
Print Assumptions C46_no_witnesses.

(** The same for a witness added by itself. *)
Theorem C46_add_witness : forall cc c d e, keys_once d -> (forall l d', In (lit "tokens", JArr l) d -> In (JObj d') l -> keys_once d') ->
  entry_fails d e -> add_witness cc c d = Raise e.
Proof. intros cc c d e K KT F. unfold add_witness. rewrite (entry_raises cc d e K KT F). reflexivity. Qed.
Print Assumptions C46_add_witness.

Example C46_errors_example :
  entry_fails [(lit "id", JStr (lit "A")); (lit "content", JNum 3)] TypeError /\
  entry_fails [(lit "id", JStr (lit "A")); (lit "tokens", JArr (map JObj [[(lit "n", JNum 3)]; [(lit "u", JStr (lit "x"))]]))] TokenError /\
  entry_fails [(lit "id", JStr (lit "A")); (lit "tokens", JArr (map JObj [[(lit "t", JStr (lit "x")); (lit "n", JNum 3)]]))] TypeError /\
  entry_fails [(lit "content", JStr (lit "A"))] KeyError.
Proof.
  split; [|split; [|split]].
  - eapply fails_content; [left; reflexivity|right; left; reflexivity|]. intros [s E]. discriminate E.
  - eapply fails_token; [left; reflexivity|cbn; intuition discriminate|right; left; reflexivity|right; left; reflexivity|cbn; intuition discriminate|cbn; intuition discriminate].
  - eapply fails_reading; [left; reflexivity|cbn; intuition discriminate|right; left; reflexivity| |left; reflexivity|left; right; left; reflexivity|].
    + intros t' [<-|[]]. left. right. left. reflexivity.
    + intros [s E]. discriminate E.
  - apply fails_id. cbn. intuition discriminate.
Qed.
