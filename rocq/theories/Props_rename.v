(** Names of witnesses (C62) and white space between words (C63). *)
From Verif Require Import Py Lib TokenModel SuffixModel IndexModel GraphModel AlignModel TableModel NearModel ExportModel
  CollateModel GraphSpec CollateSpec TokenSpec ParamSpec ParamProof RenameSpec RenameProof SpaceSpec SpaceProof Samples.
From Coq Require Import QArith.
Open Scope list_scope.
Open Scope nat_scope.

(** C62: the names of the witnesses do not matter.  Giving other names to the witnesses, so that
    equal names stay equal and different ones different, gives the same error or the same table with
    other row names. *)
Theorem C62_renaming : forall cc topo ratio c c' o, by_shape topo -> renamed c c' -> o_output o = lit "table" ->
  match collate cc topo ratio c o with
  | Ok (OTable t) => exists t', collate cc topo ratio c' o = Ok (OTable t') /\ renamed_table t t' /\ map r_header (t_rows t') = map w_sigil c'
  | Ok _ => False
  | Raise e => collate cc topo ratio c' o = Raise e
  end.
Proof. intros. apply table_renamed; assumption. Qed.
Print Assumptions C62_renaming.

Theorem C62_graph : forall cc topo ratio c c' o, by_shape topo -> renamed c c' -> o_output o = lit "graph" ->
  match collate cc topo ratio c o with
  | Ok (OGraph g) => exists g', collate cc topo ratio c' o = Ok (OGraph g') /\ renamed_graph c c' g g'
  | Ok _ => False
  | Raise e => collate cc topo ratio c' o = Raise e
  end.
Proof. intros. apply graph_renamed; assumption. Qed.
Print Assumptions C62_graph.

(** The topological sort of networkx, as modelled, is of the kind assumed. *)
Theorem C62_kahn : by_shape kahn.
Proof. exact kahn_by_shape. Qed.
Print Assumptions C62_kahn.

(** A name that becomes empty does matter: its tokens are lost (see C42). *)
Theorem C62_empty_refuted : exists c c' t t',
  Forall2 (fun w w' => w_toks w' = w_toks w) c c' /\ NoDup (map w_sigil c) /\ NoDup (map w_sigil c') /\
  collate ascii_cc kahn sample_ratio c (plain_options "table") = Ok (OTable t) /\
  collate ascii_cc kahn sample_ratio c' (plain_options "table") = Ok (OTable t') /\ ~ renamed_table t t'.
Proof.
  exists [words "A" ["a"]; words "B" ["b"]], [words "A" ["a"]; words "" ["b"]].
  destruct (collate ascii_cc kahn sample_ratio [words "A" ["a"]; words "B" ["b"]] (plain_options "table")) as [x|] eqn:E; [|exfalso; vm_compute in E; discriminate].
  destruct (collate ascii_cc kahn sample_ratio [words "A" ["a"]; words "" ["b"]] (plain_options "table")) as [x'|] eqn:E'; [|exfalso; vm_compute in E'; discriminate].
  vm_compute in E. injection E as <-. vm_compute in E'. injection E' as <-. do 2 eexists.
  split; [repeat constructor|]. split; [repeat constructor; cbn; intuition discriminate|]. split; [repeat constructor; cbn; intuition discriminate|].
  split; [reflexivity|]. split; [reflexivity|]. intros [_ F]. cbn [t_rows r_cells] in F.
  inversion F as [|? ? ? ? _ F2]; subst. inversion F2 as [|? ? ? ? F3 _]; subst. inversion F3 as [|? ? ? ? F4 _]. exact F4.
Qed.
Print Assumptions C62_empty_refuted.

(** Names that change their alphabetical order. *)
Definition named (a b d : String.string) : collation := [words a ["the"; "black"; "cat"]; words b ["the"; "cat"; "sat"]; words d ["a"; "black"; "cat"; "sat"]].
Example C62_example : renamed (named "A" "B" "C") (named "Codex" "Apograph" "B") /\
  exists t, collate ascii_cc kahn sample_ratio (named "A" "B" "C") (plain_options "table") = Ok (OTable t) /\ length (t_columns t) = 4.
Proof.
  split.
  - split; [repeat constructor; discriminate|]. intros i j a b a' b' H1 H2 H3 H4.
    destruct i as [|[|[|i]]]; cbn in H1, H3; try discriminate; [| | |destruct i; discriminate];
    (destruct j as [|[|[|j]]]; cbn in H2, H4; try discriminate; [| | |destruct j; discriminate]);
    injection H1 as <-; injection H2 as <-; injection H3 as <-; injection H4 as <-; cbn; split; intros K; try reflexivity; discriminate K.
  - destruct (collate ascii_cc kahn sample_ratio (named "A" "B" "C") (plain_options "table")) as [x|] eqn:E; [|exfalso; vm_compute in E; discriminate].
    vm_compute in E. injection E as <-. eexists. split; reflexivity.
Qed.

(** C63: how much white space follows a word does not matter.  The token strings of a text made of
    given words and punctuation are these words and punctuation. *)
Theorem C63_tokens : forall cc c c' sg ps text, cclass_ok cc -> spaced cc ps text -> add_plain_witness cc c sg text = Ok c' ->
  exists w, c' = c ++ [w] /\ w_sigil w = sg /\ map t0_str (w_toks w) = ps.
Proof.
  intros cc c c' sg ps text CC H A. unfold add_plain_witness, add_witness, witness_init in A.
  cbn [dget] in A. vm_compute (str_eqb (lit "id") (lit "id")) in A. vm_compute (str_eqb (lit "content") _) in A. cbn in A. injection A as <-.
  eexists. split; [reflexivity|]. split; [reflexivity|]. apply spaced_readings; assumption.
Qed.
Print Assumptions C63_tokens.

(** A collation of plain texts. *)
Definition plain_collation (cc : cclass) (texts : list (str * str)) : res collation :=
  foldM (fun c x => add_plain_witness cc c (fst x) (snd x)) texts [].

Lemma plain_collation_toks : forall cc texts, plain_collation cc texts = Ok (map (fun x => {| w_sigil := fst x; w_toks := map (plain_token cc) (tokenize cc (snd x)) |}) texts).
Proof.
  intros cc texts. unfold plain_collation. rewrite <- (app_nil_l (map _ texts)). generalize (@nil witness) as acc.
  induction texts as [|x texts IH]; intros acc; cbn [foldM map]; [rewrite app_nil_r; reflexivity|].
  replace (add_plain_witness cc acc (fst x) (snd x)) with (Ok (acc ++ [{| w_sigil := fst x; w_toks := map (plain_token cc) (tokenize cc (snd x)) |}])) by reflexivity.
  cbn [bind]. rewrite IH, <- app_assoc. reflexivity.
Qed.

(** Two sets of texts with the same words and punctuation, however spaced, give the same alignment
    (or the same error), if there is no properties filter. *)
Theorem C63_white_space : forall cc topo ratio texts texts' c c' o, cclass_ok cc -> structural topo ->
  Forall2 (fun x x' => fst x' = fst x /\ exists ps, spaced cc ps (snd x) /\ spaced cc ps (snd x')) texts texts' ->
  plain_collation cc texts = Ok c -> plain_collation cc texts' = Ok c' -> o_filter o = None -> o_output o = lit "table" ->
  match collate cc topo ratio c o with
  | Ok (OTable t) => exists t', collate cc topo ratio c' o = Ok (OTable t') /\ same_alignment t t'
  | Ok _ => False
  | Raise e => collate cc topo ratio c' o = Raise e
  end.
Proof.
  intros cc topo ratio texts texts' c c' o CC TS F A A' Hf T. rewrite plain_collation_toks in A, A'. injection A as <-. injection A' as <-.
  apply table_param; [exact TS| |rewrite Hf; intros f E; discriminate|exact T].
  unfold same_texts. induction F as [|x x' l l' [E [ps [H1 H2]]] F IH]; cbn [map]; constructor; [|exact IH]. cbn [w_sigil w_toks]. split; [exact E|].
  rewrite (spaced_readings cc CC _ _ H1), (spaced_readings cc CC _ _ H2). reflexivity.
Qed.
Print Assumptions C63_white_space.

(** Every text that does not begin with white space is of the kind described. *)
Theorem C63_every_text : forall cc text, cclass_ok cc -> next_not (iss cc) text -> exists ps, spaced cc ps text.
Proof. intros cc text CC H. exact (spaced_exists cc CC (length text) text (le_n _) H). Qed.
Print Assumptions C63_every_text.

(** White space at the beginning of a text is a token of its own. *)
Theorem C63_leading_refuted : exists c c' t t',
  plain_collation ascii_cc [(lit "A", lit "cat"); (lit "B", lit "cat")] = Ok c /\
  plain_collation ascii_cc [(lit "A", lit "cat"); (lit "B", lit " cat")] = Ok c' /\
  collate ascii_cc kahn sample_ratio c (plain_options "table") = Ok (OTable t) /\
  collate ascii_cc kahn sample_ratio c' (plain_options "table") = Ok (OTable t') /\ length (t_columns t) = 1 /\ length (t_columns t') = 2.
Proof.
  rewrite !plain_collation_toks. do 2 eexists.
  match goal with |- context [Ok ?a = Ok _ /\ Ok ?b = Ok _ /\ _] => 
    destruct (collate ascii_cc kahn sample_ratio a (plain_options "table")) as [x|] eqn:E; [|exfalso; vm_compute in E; discriminate];
    destruct (collate ascii_cc kahn sample_ratio b (plain_options "table")) as [x'|] eqn:E'; [|exfalso; vm_compute in E'; discriminate] end.
  vm_compute in E. injection E as <-. vm_compute in E'. injection E' as <-. do 2 eexists.
  split; [reflexivity|]. split; [reflexivity|]. split; [reflexivity|]. split; [reflexivity|]. split; reflexivity.
Qed.
Print Assumptions C63_leading_refuted.

Definition pieces : list str := [lit "the"; lit "cat"; lit ", ("; lit "sat"; lit ")."].
Example C63_example : spaced ascii_cc pieces (lit "the cat, (sat).") /\ spaced ascii_cc pieces (lit "the   cat , ( sat ).  ") /\
  ~ spaced ascii_cc pieces (lit "the cat,(sat).").
Proof.
  assert (S1 : forall s, forallb (iss ascii_cc) s = true -> all_chars (iss ascii_cc) s) by (intros s H; apply Forall_forall; apply forallb_forall; exact H).
  assert (S2 : forall s, s <> [] -> forallb (isw ascii_cc) s = true -> is_word ascii_cc s)
    by (intros s N H; split; [exact N|apply Forall_forall; apply forallb_forall; exact H]).
  assert (S3 : forall s, s <> [] -> forallb (fun c => negb (isw ascii_cc c)) s = true -> next_not (iss ascii_cc) s -> next_not (iss ascii_cc) (rev s) -> is_punctuation ascii_cc s)
    by (intros s N H A B; split; [exact N|split; [apply Forall_forall; apply forallb_forall; exact H|split; assumption]]).
  assert (W1 : is_word ascii_cc (lit "the")) by (apply S2; [discriminate|reflexivity]).
  assert (W2 : is_word ascii_cc (lit "cat")) by (apply S2; [discriminate|reflexivity]).
  assert (W3 : is_word ascii_cc (lit "sat")) by (apply S2; [discriminate|reflexivity]).
  assert (P1 : is_punctuation ascii_cc (lit ", (")) by (apply S3; [discriminate|reflexivity|reflexivity|reflexivity]).
  assert (P2 : is_punctuation ascii_cc (lit ").")) by (apply S3; [discriminate|reflexivity|reflexivity|reflexivity]).
  assert (N1 : ~ is_word ascii_cc (lit ", (")) by (intros [_ F]; inversion F; discriminate).
  assert (N2 : ~ is_word ascii_cc (lit ").")) by (intros [_ F]; inversion F; discriminate).
  split; [|split].
  - apply (spaced_word _ (lit "the") (lit " ")); [exact W1|apply S1; reflexivity|discriminate|].
    apply (spaced_word _ (lit "cat") []); [exact W2|constructor|contradiction|].
    apply (spaced_punctuation _ (lit ", (") []); [exact P1|constructor|exact W3|].
    apply (spaced_word _ (lit "sat") []); [exact W3|constructor|contradiction|].
    apply (spaced_last _ (lit ").") []); [right; exact P2|constructor].
  - apply (spaced_word _ (lit "the") (lit "   ")); [exact W1|apply S1; reflexivity|discriminate|].
    apply (spaced_word _ (lit "cat") (lit " ")); [exact W2|apply S1; reflexivity|contradiction|].
    apply (spaced_punctuation _ (lit ", (") (lit " ")); [exact P1|apply S1; reflexivity|exact W3|].
    apply (spaced_word _ (lit "sat") (lit " ")); [exact W3|apply S1; reflexivity|contradiction|].
    apply (spaced_last _ (lit ").") (lit "  ")); [right; exact P2|apply S1; reflexivity].
  - intros H. apply spaced_readings in H; [vm_compute in H; discriminate|]. intros c. cbn. intros K.
    destruct ((65 <=? c) && (c <=? 90) || (97 <=? c) && (c <=? 122) || (48 <=? c) && (c <=? 57) || (c =? 95))%N eqn:E; [|reflexivity].
    rewrite !Bool.orb_true_iff, !Bool.andb_true_iff, !N.leb_le, !N.eqb_eq in *. lia.
Qed.
