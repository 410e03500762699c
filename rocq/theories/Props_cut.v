(** Properties C02 and C97: the tokens of a text and of its parts. *)
From Verif Require Import Py TokenModel TokenSpec TokenProof CutSpec CutProof.
Open Scope list_scope.

Lemma tokens_of_iff : forall cc text ts, tokens_of cc text ts <-> ts = map (plain_token cc) (tokenize cc text).
Proof.
  intros cc text ts. unfold tokens_of. rewrite plain_witness. cbn [app]. split.
  - intros [w [E <-]]. injection E as <-. reflexivity.
  - intros ->. eexists. split; reflexivity.
Qed.
Lemma plain_map_inj : forall cc l l', map (plain_token cc) l = map (plain_token cc) l' -> l = l'.
Proof.
  intros cc l. induction l as [|s l IH]; intros [|s' l'] E; try discriminate; [reflexivity|]. cbn [map] in E. unfold plain_token at 1 3 in E. injection E as _ Et _ E. f_equal; [exact Et|apply IH; exact E].
Qed.
Lemma plain_texts : forall cc l, map (fun t => data_str "t" (t0_data t)) (map (plain_token cc) l) = map Some l.
Proof. intros. rewrite map_map. reflexivity. Qed.
Lemma some_inj : forall {A} (l l' : list A), map Some l = map Some l' -> l = l'.
Proof. intros A l. induction l as [|x l IH]; intros [|x' l'] E; try discriminate; [reflexivity|]. injection E as -> E. f_equal. apply IH. exact E. Qed.

(** ** C02: there is only one way to divide a text into legal tokens; the tokenizer finds it. *)
Theorem C02_only_division : forall cc ts, all_legal cc ts ->
  exists toks, tokens_of cc (concat ts) toks /\ map (fun t => data_str "t" (t0_data t)) toks = map Some ts.
Proof. intros cc ts H. eexists. split; [apply tokens_of_iff; reflexivity|]. rewrite legal_unique by assumption. apply plain_texts. Qed.
Print Assumptions C02_only_division.

(** ** C97: a text in two parts has the tokens of its parts exactly when no token goes on from one to the other. *)
Theorem C97_cut : forall cc a y b ta tb tab, cclass_ok cc -> a <> [] -> tokens_of cc a ta -> tokens_of cc (y :: b) tb -> tokens_of cc (a ++ y :: b) tab ->
  (tab = ta ++ tb <-> token_ends cc a y).
Proof.
  intros cc a y b ta tb tab OK NE Ha Hb Hab. apply tokens_of_iff in Ha, Hb, Hab. subst. rewrite <- map_app, <- (cut cc OK a y b NE). split; [apply plain_map_inj|intros ->; reflexivity].
Qed.
Print Assumptions C97_cut.
(** Text added at the end changes the last token only. *)
Theorem C97_added : forall cc a b ts t text tab, tokens_of cc a (ts ++ [t]) -> data_str "t" (t0_data t) = Some text -> tokens_of cc (a ++ b) tab ->
  exists more, tokens_of cc (text ++ b) more /\ tab = ts ++ more.
Proof.
  intros cc a b ts t text tab Ha Ht Hab. apply tokens_of_iff in Ha, Hab. symmetry in Ha. apply map_eq_app in Ha as [l1 [l2 [E [E1 E2]]]]. destruct l2 as [|s l2]; [discriminate|]. destruct l2; [|discriminate].
  cbn [map] in E2. injection E2 as E2. subst t ts. cbn in Ht. injection Ht as <-. eexists. split; [apply tokens_of_iff; reflexivity|]. subst tab. rewrite (last_token cc a b l1 s E), map_app. reflexivity.
Qed.
Print Assumptions C97_added.
(** A run of tokens is what one gets from its own text. *)
Theorem C97_run : forall cc text l1 l2 l3 texts, tokens_of cc text (l1 ++ l2 ++ l3) -> map (fun t => data_str "t" (t0_data t)) l2 = map Some texts ->
  tokens_of cc (concat texts) l2.
Proof.
  intros cc text l1 l2 l3 texts H E. apply tokens_of_iff in H. symmetry in H. apply map_eq_app in H as [s1 [s [E1 [E2 H]]]]. apply map_eq_app in H as [s2 [s3 [-> [E3 E4]]]]. subst l2.
  rewrite plain_texts in E. apply some_inj in E. subst texts. apply tokens_of_iff. rewrite (slice cc text s1 s2 s3 E1). reflexivity.
Qed.
Print Assumptions C97_run.

Example C97_example : cclass_ok ascii_cc /\ token_ends ascii_cc (lit "the cat ") 115%N /\ ~ token_ends ascii_cc (lit "the ca") 116%N /\ ~ token_ends ascii_cc (lit "the cat ") 32%N /\
  token_ends ascii_cc (lit "the cat ") 33%N /\ ~ token_ends ascii_cc (lit "well, ") 33%N /\
  map t0_str (map (plain_token ascii_cc) (tokenize ascii_cc (lit "the cat sat"))) = [lit "the"; lit "cat"; lit "sat"].
Proof.
  split; [intros c H; unfold ascii_cc in *; cbn [isw iss] in *; destruct ((65 <=? c) && (c <=? 90) || (97 <=? c) && (c <=? 122) || (48 <=? c) && (c <=? 57) || (c =? 95))%N eqn:E; [|reflexivity]; exfalso;
    repeat rewrite ?orb_true_iff, ?andb_true_iff, ?N.leb_le, ?N.eqb_eq in *; lia|].
  assert (K : forall a y b, a <> [] -> tokenize ascii_cc (a ++ y :: b) = tokenize ascii_cc a ++ tokenize ascii_cc (y :: b) <-> token_ends ascii_cc a y).
  { intros a y b NE. apply cut; [|exact NE]. intros c H; unfold ascii_cc in *; cbn [isw iss] in *; destruct ((65 <=? c) && (c <=? 90) || (97 <=? c) && (c <=? 122) || (48 <=? c) && (c <=? 57) || (c =? 95))%N eqn:E; [|reflexivity]; exfalso;
    repeat rewrite ?orb_true_iff, ?andb_true_iff, ?N.leb_le, ?N.eqb_eq in *; lia. }
  split; [apply (K _ _ []); [discriminate|vm_compute; reflexivity]|].
  split; [intros T; apply (K _ _ []) in T; [|discriminate]; vm_compute in T; discriminate T|].
  split; [intros T; apply (K _ _ []) in T; [|discriminate]; vm_compute in T; discriminate T|].
  split; [apply (K _ _ []); [discriminate|vm_compute; reflexivity]|].
  split; [intros T; apply (K _ _ []) in T; [|discriminate]; vm_compute in T; discriminate T|]. vm_compute. reflexivity.
Qed.
