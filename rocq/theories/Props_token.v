(** Property theorems C01, C02 (the default tokenizer) and C46 (witnesses given as data). *)
From Verif Require Import Py TokenModel TokenSpec TokenProof DictProof.

(** C01: the 't' values of the tokens of a plain-text witness, concatenated, are the text. *)
Theorem C01_tokenizer_lossless : forall cc c sigil text,
  exists w, add_plain_witness cc c sigil text = Ok (c ++ [w]) /\ w_sigil w = sigil /\
    exists ts, map (fun t => data_str "t" (t0_data t)) (w_toks w) = map Some ts /\
               concat ts = text.
Proof.
  intros. eexists. split; [apply plain_witness | split; [reflexivity|]].
  exists (tokenize cc text). split; [|apply tokenize_concat].
  simpl. rewrite map_map. reflexivity.
Qed.
Print Assumptions C01_tokenizer_lossless.

(** C02: the shape of every token and the meaning of its 'n' value; the token is
    compared through its 'n' value. *)
Theorem C02_token_shape : forall cc c sigil text,
  exists w ts, add_plain_witness cc c sigil text = Ok (c ++ [w]) /\
    map (fun t => data_str "t" (t0_data t)) (w_toks w) = map Some ts /\
    forall i t, nth_error ts i = Some t ->
      legal_token cc t (concat (skipn (S i) ts)) /\
      exists tok n, nth_error (w_toks w) i = Some tok /\
        data_str "n" (t0_data tok) = Some n /\ without_trailing_space cc t n /\ t0_str tok = n.
Proof.
  intros. eexists. exists (tokenize cc text).
  split; [apply plain_witness | split].
  - simpl. rewrite map_map. reflexivity.
  - intros i t H. split; [apply tokenize_legal; assumption|].
    exists (plain_token cc t), (rstrip cc t). repeat split.
    + simpl. apply map_nth_error. assumption.
    + apply rstrip_spec.
Qed.
Print Assumptions C02_token_shape.

(** Concrete instance: a short sentence with the ASCII classification. *)
Example C01_C02_example :
  tokenize ascii_cc (lit "Hello,  big world.") =
    [lit "Hello"; lit ",  "; lit "big "; lit "world"; lit "."] /\
  map t0_str (map (plain_token ascii_cc) (tokenize ascii_cc (lit "Hello,  big world."))) =
    [lit "Hello"; lit ","; lit "big"; lit "world"; lit "."].
Proof. vm_compute. split; reflexivity. Qed.

(** ** C46: create_from_dict reads the first [limit] entries, each as the specification says;
    it succeeds exactly when all of them can be read. *)
Theorem C46_from_dict : forall cc data limit l c, keys_once data -> In (lit "witnesses", JArr l) data -> entries_once l ->
  (create_from_dict cc data limit = Ok c <-> exists l', first_of limit l l' /\ Forall2 (entry_witness cc) l' c).
Proof. exact from_dict. Qed.
Print Assumptions C46_from_dict.
Theorem C46_needs_witnesses : forall cc data limit c, create_from_dict cc data limit = Ok c ->
  exists l, In (lit "witnesses", JArr l) data.
Proof. exact from_dict_key. Qed.
Print Assumptions C46_needs_witnesses.

(** Three witnesses of the three kinds; the limits 2 and -1 leave the first two. *)
Definition sample_data : jdict :=
  [(lit "witnesses", JArr
     [JObj [(lit "id", JStr (lit "A")); (lit "content", JStr (lit "a cat"))];
      JObj [(lit "id", JStr (lit "B")); (lit "tokens", JArr [JObj [(lit "t", JStr (lit "The ")); (lit "n", JStr (lit "the"))]; JObj [(lit "t", JStr (lit "dog"))]])];
      JObj [(lit "id", JStr (lit "C"))]])].
Example C46_example : keys_once sample_data /\ exists c, create_from_dict ascii_cc sample_data None = Ok c /\
  map w_sigil c = [lit "A"; lit "B"; lit "C"] /\
  map (fun w => map t0_str (w_toks w)) c = [[lit "a"; lit "cat"]; [lit "the"; lit "dog"]; []] /\
  create_from_dict ascii_cc sample_data (Some 2%Z) = Ok (firstn 2 c) /\
  create_from_dict ascii_cc sample_data (Some (-1)%Z) = Ok (firstn 2 c).
Proof.
  split; [repeat constructor; intros []|].
  eexists. split; [vm_compute; reflexivity|]. vm_compute. repeat split.
Qed.
