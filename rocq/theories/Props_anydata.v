(** C98: data of any JSON type. *)
From Verif Require Import Py Lib TokenModel TokenSpec TokenProof OutputProof DictProof DictErrSpec SuffixModel IndexModel IndexProof CutSpec CutProof Props_cut AnyDataModel AnyDataSpec.
From Verif Require Import Props_dicterr AnyDataProof.
Open Scope list_scope.

Definition once (l : list jval) : Prop := forall v, In v l -> keys_once_any v.

Lemma made_all : forall cc l c, once l -> (mapM (witness_any cc) l = Ok c <-> Forall2 (made_witness cc) l c).
Proof.
  intros cc l. induction l as [|v l IH]; intros c O.
  - cbn. split; [intros E; injection E as <-; constructor|intros F; inversion F; reflexivity].
  - cbn [mapM]. assert (O' : once l) by (intros v' Hv; apply O; right; exact Hv). split.
    + intros E. apply bind_ok in E as [w [Ew E]]. apply bind_ok in E as [ws [Ews E]]. injection E as <-. constructor; [apply witness_any_ok; [apply O; left; reflexivity|exact Ew]|apply IH; assumption].
    + intros F. inversion F as [|? w ? ws F1 F2]; subst. apply witness_any_ok in F1; [|apply O; left; reflexivity]. rewrite F1. cbn [bind]. apply IH in F2; [|exact O']. rewrite F2. reflexivity.
Qed.

(** What create_from_dict makes of the data, whatever types it has. *)
Theorem C98_made : forall cc data limit wv c, keys_once data -> In (lit "witnesses", wv) data -> (forall l, wv = JArr l -> once l) ->
  (create_any cc (JObj data) limit = Ok c <-> (exists l l', wv = JArr l /\ first_of limit l l' /\ Forall2 (made_witness cc) l' c) \/ (exists s, wv = JStr s /\ first_of limit s [] /\ c = [])).
Proof.
  intros cc data limit wv c K H O. apply (key_iff _ _ _ K) in H. unfold create_any. cbn [get_item]. unfold dgetE. rewrite H. cbn [bind].
  destruct wv as [|b|z|s|l|d]; cbn [slice_any bind].
  1-3,6: split; [discriminate|intros [[l [l' [Q _]]]|[s [Q _]]]; discriminate Q].
  - cbn [items bind]. split.
    + intros E. right. exists s. split; [reflexivity|]. destruct (py_prefix s limit) as [|x p] eqn:P; [split; [apply first_prefix; symmetry; exact P|cbn in E; injection E as <-; reflexivity]|].
      exfalso. cbn [map mapM] in E. discriminate E.
    + intros [[l [l' [Q _]]]|[s' [Q [F ->]]]]; [discriminate Q|]. injection Q as <-. apply first_prefix in F. rewrite <- F. reflexivity.
  - cbn [items bind]. assert (O' : once (py_prefix l limit)) by (intros v Hv; apply (O l eq_refl); apply prefix_incl in Hv; exact Hv). rewrite (made_all cc _ c O'). split.
    + intros F. left. exists l, (py_prefix l limit). split; [reflexivity|]. split; [apply first_prefix; reflexivity|exact F].
    + intros [[l0 [l' [Q [F G]]]]|[s' [Q _]]]; [|discriminate Q]. injection Q as <-. apply first_prefix in F. rewrite <- F. exact G.
Qed.
Print Assumptions C98_made.

(** Errors: data that is not an object, no witnesses, witnesses that are no list, and the first entry that cannot be read. *)
Theorem C98_errors : forall cc limit,
  (forall v, (forall d, v <> JObj d) -> create_any cc v limit = Raise TypeError) /\
  (forall data, ~ In (lit "witnesses") (map fst data) -> create_any cc (JObj data) limit = Raise KeyError) /\
  (forall data wv, keys_once data -> In (lit "witnesses", wv) data -> ~ text_or_list wv -> create_any cc (JObj data) limit = Raise TypeError) /\
  (forall data s, keys_once data -> In (lit "witnesses", JStr s) data -> ~ first_of limit s [] -> create_any cc (JObj data) limit = Raise TypeError) /\
  (forall data l a v b c e, keys_once data -> In (lit "witnesses", JArr l) data -> once l -> first_of limit l (a ++ v :: b) -> Forall2 (made_witness cc) a c -> entry_error v e ->
     create_any cc (JObj data) limit = Raise e).
Proof.
  intros cc limit. repeat split.
  - intros v N. unfold create_any. destruct v; try reflexivity. exfalso. exact (N d eq_refl).
  - intros data N. apply key_absent in N. unfold create_any. cbn [get_item]. unfold dgetE. rewrite N. reflexivity.
  - intros data wv K H N. apply (key_iff _ _ _ K) in H. unfold create_any. cbn [get_item]. unfold dgetE. rewrite H. cbn [bind]. destruct wv; try reflexivity; exfalso; apply N; [left|right]; eexists; reflexivity.
  - intros data s K H N. apply (key_iff _ _ _ K) in H. unfold create_any. cbn [get_item]. unfold dgetE. rewrite H. cbn [bind slice_any items]. destruct (py_prefix s limit) as [|x p] eqn:P; [exfalso; apply N; apply first_prefix; symmetry; exact P|reflexivity].
  - intros data l a v b c e K H O F FA E. apply (key_iff _ _ _ K) in H. apply first_prefix in F. unfold create_any. cbn [get_item]. unfold dgetE. rewrite H. cbn [bind slice_any items]. rewrite <- F.
    assert (O' : once (a ++ v :: b)) by (intros y Hy; apply O; rewrite F in Hy; apply prefix_incl in Hy; exact Hy). apply mapM_first.
    + intros y Hy. assert (exists w, made_witness cc y w) as [w W].
      { clear - FA Hy. induction FA as [|y' w a c M FA IH]; [destruct Hy|]. destruct Hy as [<-|Hy]; [exists w; exact M|apply IH; exact Hy]. }
      exists w. apply witness_any_ok; [apply O'; apply in_or_app; left; exact Hy|exact W].
    + apply witness_any_error; [apply O'; apply in_elt|exact E].
Qed.
Print Assumptions C98_errors.

(** Every entry is read or has an error, and not both. *)
Theorem C98_entry : forall cc v, keys_once_any v -> ((exists w, made_witness cc v w) \/ (exists e, entry_error v e)) /\ ~ ((exists w, made_witness cc v w) /\ (exists e, entry_error v e)) /\
  (forall w w', made_witness cc v w -> made_witness cc v w' -> w = w') /\ (forall e e', entry_error v e -> entry_error v e' -> e = e').
Proof.
  intros cc v K. split; [apply witness_cases; exact K|]. split; [|split].
  - intros [[w W] [e E]]. apply (witness_any_ok cc v w K) in W. apply (witness_any_error cc v e K) in E. congruence.
  - intros w w' W W'. apply (witness_any_ok cc v _ K) in W, W'. congruence.
  - intros e e' E E'. apply (witness_any_error cc v _ K) in E, E'. congruence.
Qed.
Print Assumptions C98_entry.

(** On usual data nothing is different from the model used everywhere else, errors included. *)
Theorem C98_usual : forall cc data limit, usual_data data -> create_any cc (JObj data) limit = (c <- create_from_dict cc data limit ;; Ok (map embed c)).
Proof.
  intros cc data limit U. unfold create_any, create_from_dict. cbn [get_item]. unfold dgetE. destruct (dget str_eqb (lit "witnesses") data) as [wv|] eqn:D; [|reflexivity].
  destruct (U wv D) as [l [-> F]]. cbn [bind slice_any items].
  rewrite usual_fold. { cbn [collation_empty map app]. destruct (mapM (witness_any cc) (py_prefix l limit)); reflexivity. }
  apply Forall_forall. intros v Hv. apply prefix_incl in Hv. rewrite Forall_forall in F. apply F. exact Hv.
Qed.
Print Assumptions C98_usual.

(** collate given a dictionary reads it as create_from_dict does, except that an object stands for an empty list too. *)
Theorem C98_collate_reads : forall cc data,
  (forall wv, keys_once data -> In (lit "witnesses", wv) data -> (forall d, wv <> JObj d) -> collate_reads cc data = create_any cc (JObj data) None) /\
  (keys_once data -> In (lit "witnesses", JObj []) data -> collate_reads cc data = Ok []) /\
  (forall m d, keys_once data -> In (lit "witnesses", JObj (m :: d)) data -> collate_reads cc data = Raise TypeError) /\
  (~ In (lit "witnesses") (map fst data) -> collate_reads cc data = Raise KeyError).
Proof.
  intros cc data. unfold collate_reads, create_any. cbn [get_item]. unfold dgetE. repeat split.
  - intros wv K H N. apply (key_iff _ _ _ K) in H. rewrite H. cbn [bind]. destruct wv; try reflexivity. exfalso. exact (N d eq_refl).
  - intros K H. apply (key_iff _ _ _ K) in H. rewrite H. reflexivity.
  - intros m d K H. apply (key_iff _ _ _ K) in H. rewrite H. reflexivity.
  - intros N. apply key_absent in N. rewrite N. reflexivity.
Qed.
Print Assumptions C98_collate_reads.

Lemma no_null : forall w, existsb (fun t => match ta_data t with None => true | Some _ => false end) (wa_toks w) = false <-> forall t, In t (wa_toks w) -> ta_data t <> None.
Proof.
  intros w. split.
  - intros H t Ht E. assert (Q : existsb (fun t => match ta_data t with None => true | Some _ => false end) (wa_toks w) = true) by (apply existsb_exists; exists t; split; [exact Ht|rewrite E; reflexivity]). congruence.
  - intros H. destruct (existsb _ (wa_toks w)) eqn:E; [|reflexivity]. apply existsb_exists in E as [t [Ht E]]. destruct (ta_data t) eqn:D; [discriminate|]. exfalso. exact (H t Ht D).
Qed.
Lemma hashable_iff : forall v, hashable v = true <-> (forall l, v <> JArr l) /\ (forall d, v <> JObj d).
Proof. intros v. destruct v; cbn; split; try discriminate; try (intros; split; intros; discriminate); try reflexivity; intros [A B]; exfalso; [exact (A l eq_refl)|exact (B d eq_refl)]. Qed.
Lemma loop_any_ok : forall a b, Forall usable a -> prepare_loop_any (a ++ b) = prepare_loop_any b.
Proof.
  intros a b F. induction F as [|w a [U1 [U2 [U3 U4]]] F IH]; [reflexivity|]. cbn [app prepare_loop_any].
  destruct (Nat.eqb_spec (length (wa_toks w)) 0) as [E|_]; [destruct (wa_toks w); [congruence|discriminate]|]. rewrite (proj2 (hashable_iff _) (conj U3 U4)), (proj2 (no_null w) U2). exact IH.
Qed.

(** The first steps of collate: they succeed exactly when there are witnesses and all can be used; of the others the first one decides. *)
Theorem C98_usable : (forall c, prepare_any c = Ok tt <-> c <> [] /\ Forall usable c) /\ prepare_any [] = Raise IndexError /\
  (forall a w b, Forall usable a -> wa_toks w = [] -> prepare_any (a ++ w :: b) = Raise AssertionError) /\
  (forall a w b, Forall usable a -> wa_toks w <> [] -> ~ usable w -> prepare_any (a ++ w :: b) = Raise TypeError).
Proof.
  split; [|split; [reflexivity|split]].
  - intros c. split.
    + intros H. unfold prepare_any in H. apply bind_ok in H as [[] [H N]]. split; [intros ->; discriminate|]. clear N. induction c as [|w c IH]; [constructor|]. cbn [prepare_loop_any] in H.
      destruct (Nat.eqb_spec (length (wa_toks w)) 0) as [E|NE]; [discriminate|]. destruct (hashable (wa_id w)) eqn:Hh; cbn [negb] in H; [|discriminate]. destruct (existsb _ (wa_toks w)) eqn:Ex; [discriminate|].
      apply hashable_iff in Hh as [A B]. constructor; [|apply IH; exact H]. split; [intros Q; rewrite Q in NE; apply NE; reflexivity|]. split; [apply no_null; exact Ex|split; assumption].
    + intros [N F]. unfold prepare_any. rewrite <- (app_nil_r c) at 1. rewrite (loop_any_ok c [] F). destruct c; [congruence|reflexivity].
  - intros a w b F E. unfold prepare_any. rewrite (loop_any_ok a _ F). cbn [prepare_loop_any]. rewrite E. reflexivity.
  - intros a w b F E N. unfold prepare_any. rewrite (loop_any_ok a _ F). cbn [prepare_loop_any].
    destruct (Nat.eqb_spec (length (wa_toks w)) 0) as [L|_]; [destruct (wa_toks w); [congruence|discriminate]|].
    destruct (hashable (wa_id w)) eqn:Hh; cbn [negb]; [|reflexivity]. destruct (existsb _ (wa_toks w)) eqn:Ex; [reflexivity|].
    exfalso. apply N. apply hashable_iff in Hh as [A B]. split; [exact E|]. split; [apply no_null; exact Ex|split; assumption].
Qed.
Print Assumptions C98_usable.

Lemma loop_embed : forall c idx pos tap r a o, prepare_loop_any (map embed c) = (_ <- prepare_loop c idx pos tap r a o ;; Ok tt).
Proof.
  induction c as [|w c IH]; intros; [reflexivity|]. cbn [map prepare_loop_any prepare_loop]. unfold embed at 1 2 3. cbn [wa_toks wa_id hashable negb]. rewrite map_length. unfold range_of.
  destruct (Nat.eqb_spec (length (w_toks w)) 0) as [E|E]; [rewrite E; destruct (Nat.ltb_spec pos (pos + 0)); [lia|reflexivity]|].
  destruct (Nat.ltb_spec pos (pos + length (w_toks w))); [|lia]. cbn [bind].
  assert (X : existsb (fun t => match ta_data t with None => true | Some _ => false end) (map embed_tok (w_toks w)) = false).
  { destruct (existsb _ _) eqn:Ex; [|reflexivity]. apply existsb_exists in Ex as [t [Ht Q]]. apply in_map_iff in Ht as [t0 [<- _]]. discriminate Q. }
  rewrite X. apply IH.
Qed.
Lemma loop_arr : forall c idx pos tap r a o x, prepare_loop c idx pos tap r a o = Ok x -> c <> [] -> snd (fst x) <> [].
Proof.
  assert (G : forall c idx pos tap r a o x, prepare_loop c idx pos tap r a o = Ok x -> a <> [] -> snd (fst x) <> []).
  { induction c as [|w c IH]; intros idx pos tap r a o x H N; cbn [prepare_loop] in H; [injection H as <-; exact N|]. apply bind_ok in H as [y [_ H]]. eapply IH; [exact H|]. destruct a; [congruence|discriminate]. }
  intros c idx pos tap r a o x H N. destruct c as [|w c]; [congruence|]. cbn [prepare_loop] in H. apply bind_ok in H as [y [_ H]]. eapply G; [exact H|]. intros Q. apply app_eq_nil in Q as [_ Q]. apply app_eq_nil in Q as [_ Q]. discriminate Q.
Qed.
(** The same for the usual collations: nothing new can go wrong there. *)
Theorem C98_usual_start : forall c, prepare_any (map embed c) = (_ <- prepare_array c ;; Ok tt).
Proof.
  intros c. unfold prepare_any, prepare_array. rewrite (loop_embed c 0 0 0 [] [] []). destruct (prepare_loop c 0 0 0 [] [] []) as [[[r a] o]|e] eqn:E; cbn [bind]; [|reflexivity].
  destruct c as [|w c]; [cbn in E; injection E as <- <- <-; reflexivity|]. pose proof (loop_arr _ _ _ _ _ _ _ _ E ltac:(discriminate)) as N. cbn [fst snd] in N. cbn [map]. destruct a; [congruence|reflexivity].
Qed.
Print Assumptions C98_usual_start.

(** Examples: a witness with a number for an id and a null token is read, and collate refuses it; a list that contains "t" in
    the place of a token is a TypeError, another list a TokenError. *)
Definition odd (v : jval) : jval := JObj [(lit "id", JNum 7); (lit "tokens", JArr [JObj [(lit "t", JStr (lit "a"))]; v])].
Definition odd_data (v : jval) : jdict := [(lit "witnesses", JArr [odd v])].
Example C98_null_example : forall cc,
  create_any cc (JObj (odd_data JNull)) None = Ok [{| wa_id := JNum 7; wa_toks := [{| ta_str := lit "a"; ta_data := Some [(lit "t", JStr (lit "a"))] |}; {| ta_str := []; ta_data := None |}] |}] /\
  (exists c, create_any cc (JObj (odd_data JNull)) None = Ok c /\ prepare_any c = Raise TypeError) /\
  create_any cc (JObj (odd_data (JArr [JStr (lit "t")]))) None = Raise TypeError /\ create_any cc (JObj (odd_data (JArr []))) None = Raise TokenError /\
  create_any cc (JObj (odd_data (JStr (lit "cat")))) None = Raise TypeError /\ create_any cc (JObj (odd_data (JStr (lit "dog")))) None = Raise TokenError.
Proof. intros cc. split; [reflexivity|]. split; [eexists; split; reflexivity|]. repeat split; reflexivity. Qed.
Example C98_hyp_example : keys_once (odd_data JNull) /\ once [odd JNull] /\ entry_error (odd (JArr [])) TokenError.
Proof.
  split; [unfold keys_once; cbn; repeat constructor; intros []|]. split.
  - intros v [<-|[]] d Q. injection Q as <-. split; [unfold keys_once; cbn; repeat constructor; cbn; intuition discriminate|].
    intros l' d' [Q|[Q|[]]] I; [discriminate Q|]. injection Q as <-. destruct I as [Q|[Q|[]]]; [|discriminate Q]. injection Q as <-. unfold keys_once; cbn; repeat constructor; intros [].
  - apply err_token with (v := JArr [JObj [(lit "t", JStr (lit "a"))]; JArr []]) (a := [JObj [(lit "t", JStr (lit "a"))]]) (x := JArr []) (b := []).
    + left. reflexivity.
    + intros [Q|[Q|[]]]; discriminate Q.
    + right. left. reflexivity.
    + constructor.
    + intros y [<-|[]]. exists (JStr (lit "a")). apply reading_t; [intros [Q|[]]; discriminate Q|left; reflexivity].
    + apply err_nothing; [right; eexists; reflexivity|]. intros Q. inversion Q as [|? [C|C]]; destruct C.
Qed.
