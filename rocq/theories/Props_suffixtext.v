(** C76, C77, C78: word texts, features and files of suffix arrays. *)
From Verif Require Import Py Lib TokenModel RangeSetModel SuffixModel SuffixSpec SuffixProof SuffixTextModel SuffixTextSpec SuffixTextProof.
From Coq Require Import ZArith.
Open Scope list_scope.
Open Scope nat_scope.

(** ** C76: words and their text *)

(** An array is made from every text, of words or of characters, and of every list of tokens. *)
Theorem C76_total : forall s l b, (exists ta, create_array (TStr s) UNIT_WORD b = Ok ta) /\ (exists ta, create_array (TStr s) UNIT_BYTE b = Ok ta) /\
  exists ta, create_array (TToks l) UNIT_BYTE b = Ok ta.
Proof. intros s l b. repeat split; eapply array_total; reflexivity. Qed.
Print Assumptions C76_total.

Theorem C76_words : forall s l, unit_tokens UNIT_WORD (TStr s) = Ok l <-> words_of s l.
Proof. exact words_spec. Qed.
Print Assumptions C76_words.

(** A stretch of tokens of a word text is shown with one space between words and none beside newlines,
    and that text has the same tokens again. *)
Theorem C76_stretch : forall s l b ta p k, create_array (TStr s) UNIT_WORD b = Ok ta -> words_of s l ->
  exists txt, repr_string ta p k = Ok txt /\ txt = written (firstn k (skipn p l)) /\ words_of txt (firstn k (skipn p l)).
Proof.
  intros s l b ta p k H W. destruct (array_made _ _ _ _ H) as [toks [HT [HS [HU _]]]]. apply words_spec in W. rewrite W in HT. injection HT as <-. apply words_spec in W.
  assert (F : Forall token_ok (firstn k (skipn p l))).
  { pose proof (words_tokens _ _ W) as F. rewrite Forall_forall in *. intros x Hx. apply F. rewrite <- (firstn_skipn p l). apply in_or_app. right.
    rewrite <- (firstn_skipn k (skipn p l)). apply in_or_app. left. exact Hx. }
  eexists. split; [apply (repr_tokens ta l p k HS)|]. rewrite HU, (word_text _ F). split; [reflexivity|]. apply written_words. exact F.
Qed.
Print Assumptions C76_stretch.

(** A text without needless spaces is given back as it was. *)
Theorem C76_whole : forall s l b ta k, create_array (TStr s) UNIT_WORD b = Ok ta -> words_of s l -> neat s -> length l <= k -> repr_string ta 0 k = Ok s.
Proof.
  intros s l b ta k H W N L. destruct (C76_stretch s l b ta 0 k H W) as [txt [E [-> _]]]. rewrite E. cbn [skipn]. rewrite firstn_all2 by exact L. rewrite (neat_text s l W N). reflexivity.
Qed.
Print Assumptions C76_whole.

(** With characters as tokens the text of a stretch is that part of the text. *)
Theorem C76_characters : forall s b ta p k, create_array (TStr s) UNIT_BYTE b = Ok ta -> repr_string ta p k = Ok (firstn k (skipn p s)).
Proof.
  intros s b ta p k H. destruct (array_made _ _ _ _ H) as [toks [HT [HS [HU _]]]]. cbn [unit_tokens] in HT. injection HT as <-.
  rewrite (repr_tokens ta _ p k HS), HU, skipn_map, firstn_map, join_chars. reflexivity.
Qed.
Print Assumptions C76_characters.

(** vocSize is the number of different tokens, nbSentences that of newlines. *)
Theorem C76_counts : forall s l b ta, create_array (TStr s) UNIT_WORD b = Ok ta -> words_of s l ->
  ta_nbSentences ta = count_occ N.eq_dec s 10%N /\
  exists voc, NoDup voc /\ (forall x, In x voc <-> In x l /\ x <> [10%N]) /\ ta_vocSize ta = length voc.
Proof.
  intros s l b ta H W. pose proof (proj2 (words_spec s l) W) as HT. split; [|apply (voc_counted _ _ _ _ _ H HT)].
  destruct (array_made _ _ _ _ H) as [toks [E [_ [_ [Q _]]]]]. rewrite HT in E. injection E as <-. rewrite Q. apply newlines_counted. exact W.
Qed.
Print Assumptions C76_counts.

(** The unit of characters is not usable with str in Python 3. *)
Theorem C76_decode : forall t b, create_array t UNIT_CHARACTER b = Raise AttributeError.
Proof. intros [s|l] b; reflexivity. Qed.
Print Assumptions C76_decode.

Definition two_lines : str := lit "miss A" ++ [10%N] ++ lit "and miss B".
Example C76_example : neat two_lines /\ exists ta, create_array (TStr two_lines) UNIT_WORD false = Ok ta /\
  words_of two_lines [lit "miss"; lit "A"; [10%N]; lit "and"; lit "miss"; lit "B"] /\ repr_string ta 1 3 = Ok (lit "A" ++ [10%N] ++ lit "and") /\ ta_vocSize ta = 4 /\ ta_nbSentences ta = 1.
Proof.
  split.
  - assert (P : forall x y, (forall a b, two_lines <> a ++ [x; y] ++ b) <-> forallb (fun i => negb (match skipn i two_lines with u :: v :: _ => N.eqb u x && N.eqb v y | _ => false end)) (seq 0 (length two_lines)) = true).
    { intros x y. rewrite forallb_forall. split.
      - intros H i Hi. apply negb_true_iff, not_true_is_false. intros Q. destruct (skipn i two_lines) as [|u [|v r]] eqn:E; try discriminate Q.
        apply andb_true_iff in Q as [Q1 Q2]. apply N.eqb_eq in Q1, Q2. subst u v. apply (H (firstn i two_lines) r). rewrite <- (firstn_skipn i two_lines) at 1. rewrite E. reflexivity.
      - intros H a b E. assert (L : length a < length two_lines) by (rewrite E, app_length; cbn [length app]; lia). specialize (H (length a)).
        rewrite E in H at 2. rewrite skipn_app, Nat.sub_diag, skipn_all2 in H by lia. cbn [app skipn] in H. rewrite !N.eqb_refl in H. cbn [andb negb] in H.
        assert (false = true) as Q; [apply H; apply in_seq; lia|discriminate Q]. }
    split; [intros b Q; discriminate Q|]. split; [intros a Q; apply (f_equal (@rev N)) in Q; rewrite rev_app_distr in Q; discriminate Q|].
    repeat split; apply P; vm_compute; reflexivity.
  - eexists. split; [vm_compute; reflexivity|]. split; [apply words_spec; vm_compute; reflexivity|]. split; [vm_compute; reflexivity|]. split; vm_compute; reflexivity.
Qed.

(** ** C77: features *)

(** Searching with features: every occurrence once, with the values attached to the suffix there. *)
Theorem C77_find_partial : forall u toks ta sub subt names, built u toks ta -> length toks <> 1 -> unit_tokens u sub = Ok subt ->
  Forall (fun name => exists vs, has_feature ta name vs) names ->
  exists R, find_features ta sub names = Ok R /\ NoDup (map fst R) /\ (forall p, In p (map fst R) <-> occurs_at subt toks p) /\
    forall p vs, In (p, vs) R -> Forall2 (fun name v => exists V, feature_values ta name = Ok V /\ attached ta V p v) names vs.
Proof. exact find_with_features. Qed.
Print Assumptions C77_find_partial.

(** The lookup of a feature: the default for a text that does not occur, and otherwise the value
    attached to one of its occurrences.  Missing: features made by addFeature, for which the default may come
    instead (next theorem), and texts of one token. *)
Theorem C77_lookup_partial : forall u toks ta sub subt name f, built u toks ta -> length toks <> 1 -> unit_tokens u sub = Ok subt ->
  dget str_eqb name (ta_attrs ta) = Some f -> length (ft_values f) = length (sa_SA (ta_sa ta)) ->
  exists v, lookup ta name sub = Ok v /\
    ((forall p, ~ occurs_at subt toks p) -> v = ft_default f) /\
    ((exists p, occurs_at subt toks p) -> (exists p, occurs_at subt toks p /\ attached ta (ft_values f) p v) \/ (ft_truthy f = true /\ v = ft_default f)).
Proof. exact lookup_feature. Qed.
Print Assumptions C77_lookup_partial.

Definition double (row : list jval) : res jval := match row with [JNum z] => Ok (JNum (2 * z + 7)) | _ => Raise TypeError end.
Theorem C77_lookup_refuted : exists toks ta sub subt name f, built UNIT_BYTE toks ta /\ length toks <> 1 /\ unit_tokens UNIT_BYTE sub = Ok subt /\
  dget str_eqb name (ta_attrs ta) = Some f /\ length (ft_values f) = length (sa_SA (ta_sa ta)) /\
  (exists p, occurs_at subt toks p) /\ forall v, lookup ta name sub = Ok v -> forall p, ~ attached ta (ft_values f) p v.
Proof.
  destruct (create_array (TStr (lit "abcd")) UNIT_BYTE false) as [ta0|] eqn:E0; [|exfalso; vm_compute in E0; discriminate].
  destruct (add_feature ta0 double JNull (lit "twice") [lit "LCP"]) as [ta|] eqn:E1; [|exfalso; vm_compute in E0; injection E0 as <-; vm_compute in E1; discriminate].
  exists (map (fun c => [c]) (lit "abcd")), ta, (TStr (lit "ab")), (map (fun c => [c]) (lit "ab")), (lit "twice").
  assert (B : built UNIT_BYTE (map (fun c => [c]) (lit "abcd")) ta).
  { eapply built_fn; [refine (built_new _ _ _ _ _ E0); reflexivity| |exact E1]. intros Q. vm_compute in Q. discriminate Q. }
  vm_compute in E0. injection E0 as <-. vm_compute in E1. injection E1 as <-. eexists. split; [exact B|]. split; [vm_compute; lia|]. split; [reflexivity|]. split; [vm_compute; reflexivity|].
  split; [reflexivity|]. split; [exists 0; split; [vm_compute; lia|reflexivity]|]. intros v H p [r [_ Hr]]. vm_compute in H. injection H as <-.
  cbn [ft_values] in Hr. destruct r as [|[|[|[|r]]]]; vm_compute in Hr; discriminate Hr || (destruct r; discriminate Hr).
Qed.
Print Assumptions C77_lookup_refuted.

(** What addFeature and addFeatureSA attach. *)
Theorem C77_added : forall ta cb d name args ta', add_feature ta cb d name args = Ok ta' ->
  ta_sa ta' = ta_sa ta /\ (forall other, other <> name -> feature_values ta' other = feature_values ta other) /\
  exists vs, has_feature ta' name vs /\
    forall p v, attached ta' vs p v -> exists row, cb row = Ok v /\ Forall2 (fun a x => exists V, feature_values ta a = Ok V /\ attached ta V p x) args row.
Proof. exact added_feature. Qed.
Print Assumptions C77_added.

Theorem C77_added_sa : forall ta cb d name ta', add_feature_sa ta cb d name = Ok ta' ->
  ta_sa ta' = ta_sa ta /\ (forall other, other <> name -> feature_values ta' other = feature_values ta other) /\
  exists vs, cb ta = Ok vs /\ feature_values ta' name = Ok vs.
Proof. exact added_feature_sa. Qed.
Print Assumptions C77_added_sa.

(** The parameters pos and iSA that the documentation of addFeature offers do not exist. *)
Theorem C77_parameters_refuted : forall t u b ta cb d name x args, create_array t u b = Ok ta -> x = lit "pos" \/ x = lit "iSA" ->
  add_feature ta cb d name (x :: args) = Raise AttributeError.
Proof.
  intros t u b ta cb d name x args H Hx. unfold create_array in H. apply bind_ok in H as [toks [_ H]]. apply bind_ok in H as [sa [_ H]].
  unfold add_feature. cbn [mapM]. assert (E : feature_values ta x = Raise AttributeError); [|rewrite E; reflexivity].
  destruct b; [injection H as <-; reflexivity|]. unfold add_feature_sa, lcp_callback in H. cbn [bind] in H. injection H as <-.
  unfold feature_values. cbn [set_feature ta_attrs]. destruct Hx as [Hx|Hx]; rewrite Hx; reflexivity.
Qed.
Print Assumptions C77_parameters_refuted.

(** The printed table from its beginning: every suffix in order, with its text and its own features. *)
Theorem C77_table_partial : forall u toks ta stop maxlen rows, built u toks ta -> table_rows ta 0 stop maxlen = Ok rows ->
  map (fun x => fst (fst x)) rows = (match stop with Some e => firstn e (sa_SA (ta_sa ta)) | None => sa_SA (ta_sa ta) end) /\
  forall p txt feats, In (p, txt, feats) rows -> (exists whole, repr_string ta p maxlen = Ok whole /\ txt = firstn maxlen whole) /\
    Forall2 (fun name x => fst x = name /\ exists V, feature_values ta name = Ok V /\ attached ta V p (snd x)) (ta_features ta) feats.
Proof. exact printed_rows. Qed.
Print Assumptions C77_table_partial.

(** From a later beginning the features of other suffixes are printed. *)
Theorem C77_table_refuted : exists toks ta rows p txt v V, built UNIT_BYTE toks ta /\ table_rows ta 3 None 10 = Ok rows /\
  In (p, txt, [(lit "LCP", v)]) rows /\ feature_values ta (lit "LCP") = Ok V /\ ~ attached ta V p v.
Proof.
  destruct (create_array (TStr (lit "mississippi")) UNIT_BYTE false) as [ta|] eqn:E; [|exfalso; vm_compute in E; discriminate].
  exists (map (fun c => [c]) (lit "mississippi")), ta. assert (B : built UNIT_BYTE (map (fun c => [c]) (lit "mississippi")) ta) by (refine (built_new _ _ _ _ _ E); reflexivity).
  vm_compute in E. injection E as <-. eexists. exists 1, (lit "ississippi"), (JNum 0). eexists. split; [exact B|]. split; [vm_compute; reflexivity|].
  split; [left; reflexivity|]. split; [vm_compute; reflexivity|]. intros [r [H1 H2]].
  do 11 (destruct r as [|r]; [first [discriminate H1|discriminate H2]|]). destruct r; discriminate H1.
Qed.
Print Assumptions C77_table_refuted.

Example C77_example : exists toks ta, built UNIT_BYTE toks ta /\ length toks <> 1 /\ (exists vs, has_feature ta (lit "twice") vs) /\
  find_features ta (TStr (lit "iss")) [lit "LCP"; lit "twice"] = Ok [(4, [JNum 1; JNum 9]); (1, [JNum 4; JNum 15])] /\ lookup ta (lit "twice") (TStr (lit "ississ")) = Ok (JNum 15).
Proof.
  destruct (create_array (TStr (lit "mississippi")) UNIT_BYTE false) as [ta0|] eqn:E0; [|exfalso; vm_compute in E0; discriminate].
  destruct (add_feature ta0 double JNull (lit "twice") [lit "LCP"]) as [ta|] eqn:E1; [|exfalso; vm_compute in E0; injection E0 as <-; vm_compute in E1; discriminate].
  exists (map (fun c => [c]) (lit "mississippi")), ta.
  assert (B : built UNIT_BYTE (map (fun c => [c]) (lit "mississippi")) ta).
  { eapply built_fn; [refine (built_new _ _ _ _ _ E0); reflexivity| |exact E1]. intros Q. vm_compute in Q. discriminate Q. }
  split; [exact B|]. split; [vm_compute; lia|]. vm_compute in E0. injection E0 as <-. vm_compute in E1. injection E1 as <-.
  split; [eexists; split; [vm_compute; reflexivity|reflexivity]|]. split; vm_compute; reflexivity.
Qed.

(** ** C78: saving and loading *)

(** Saved to a gzip file and loaded again, an array answers every search, every request for a text and
    every lookup of a feature not made by addFeature as before. *)
Theorem C78_gzip_partial : forall u toks ta filename, built u toks ta -> ends_in_gz filename = true ->
  exists d ta', to_file ta filename = Ok d /\ from_file d = Ok ta' /\
    (forall sub names, find_features ta' sub names = find_features ta sub names) /\
    (forall p k, repr_string ta' p k = repr_string ta p k) /\
    (forall name sub f, dget str_eqb name (ta_attrs ta) = Some f -> ft_truthy f = false -> lookup ta' name sub = lookup ta name sub) /\
    ta_vocSize ta' = ta_vocSize ta /\ ta_nbSentences ta' = ta_nbSentences ta /\ ta_features ta' = ta_features ta.
Proof.
  intros u toks ta filename B G. destruct (save_load u toks ta filename B G) as [d [ta' [E1 [E2 L]]]]. exists d, ta'. split; [exact E1|]. split; [exact E2|].
  split; [intros; apply loaded_find; exact L|]. split; [intros; apply loaded_repr; exact L|]. split; [intros; eapply loaded_lookup; eassumption|].
  destruct L as [_ [_ [_ [_ [L1 [L2 [L3 _]]]]]]]. auto.
Qed.
Print Assumptions C78_gzip_partial.

(** Saving under any other name fails. *)
Theorem C78_plain_refuted : forall u toks ta filename, built u toks ta -> ends_in_gz filename = false -> to_file ta filename = Raise TypeError.
Proof.
  intros u toks ta filename B G. destruct (save_load u toks ta (lit "x.gz") B eq_refl) as [d [ta' [E _]]]. unfold to_file in *.
  destruct (mapM _ (ta_features ta)); [|discriminate E]. cbn [bind]. rewrite G. reflexivity.
Qed.
Print Assumptions C78_plain_refuted.

(** A feature made by addFeature may be looked up differently after loading. *)
Theorem C78_lookup_refuted : exists toks ta d ta' name sub, built UNIT_BYTE toks ta /\ to_file ta (lit "sa.gz") = Ok d /\ from_file d = Ok ta' /\
  In name (ta_features ta) /\ lookup ta' name sub <> lookup ta name sub.
Proof.
  destruct (create_array (TStr (lit "abcd")) UNIT_BYTE false) as [ta0|] eqn:E0; [|exfalso; vm_compute in E0; discriminate].
  destruct (add_feature ta0 double JNull (lit "twice") [lit "LCP"]) as [ta|] eqn:E1; [|exfalso; vm_compute in E0; injection E0 as <-; vm_compute in E1; discriminate].
  assert (B : built UNIT_BYTE (map (fun c => [c]) (lit "abcd")) ta).
  { eapply built_fn; [refine (built_new _ _ _ _ _ E0); reflexivity| |exact E1]. intros Q. vm_compute in Q. discriminate Q. }
  exists (map (fun c => [c]) (lit "abcd")), ta. vm_compute in E0. injection E0 as <-. vm_compute in E1. injection E1 as <-.
  eexists. eexists. exists (lit "twice"), (TStr (lit "ab")). split; [exact B|]. split; [vm_compute; reflexivity|]. split; [vm_compute; reflexivity|]. split; [right; left; reflexivity|].
  vm_compute. discriminate.
Qed.
Print Assumptions C78_lookup_refuted.
