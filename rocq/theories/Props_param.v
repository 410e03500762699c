(** What the alignment depends on (C57). *)
From Verif Require Import Py Lib TokenModel SuffixModel IndexModel GraphModel AlignModel TableModel NearModel ExportModel
  CollateModel GraphSpec CollateSpec ParamSpec ParamProof Samples.
From Coq Require Import QArith.
Open Scope list_scope.
Open Scope nat_scope.

(** C57: the alignment depends on the sigla and the token strings only.  Two collations with the
    same sigla and token strings, whatever other data their tokens carry, raise the same error or
    give tables that differ in the token data only. *)
Theorem C57_only_token_strings : forall cc topo ratio c c' o, structural topo -> same_texts c c' -> same_answers (o_filter o) c c' ->
  o_output o = lit "table" ->
  match collate cc topo ratio c o with
  | Ok (OTable t) => exists t', collate cc topo ratio c' o = Ok (OTable t') /\ same_alignment t t'
  | Ok _ => False
  | Raise e => collate cc topo ratio c' o = Raise e
  end.
Proof. intros. apply table_param; assumption. Qed.
Print Assumptions C57_only_token_strings.

Theorem C57_graph : forall cc topo ratio c c' o, structural topo -> same_texts c c' -> same_answers (o_filter o) c c' ->
  o_output o = lit "graph" ->
  match collate cc topo ratio c o with
  | Ok (OGraph g) => exists g', collate cc topo ratio c' o = Ok (OGraph g') /\ same_drawing g g'
  | Ok _ => False
  | Raise e => collate cc topo ratio c' o = Raise e
  end.
Proof. intros. apply drawing_param; assumption. Qed.
Print Assumptions C57_graph.

(** The topological sort of networkx, as modelled, is of the kind assumed. *)
Theorem C57_kahn : structural kahn.
Proof. exact kahn_structural. Qed.

(** Without a filter nothing is asked. *)
Theorem C57_no_filter : forall c c', same_answers None c c'.
Proof. intros c c' f H. discriminate. Qed.

Definition lemma_token (t n : str) (more : jdict) : tok0 := {| t0_str := n; t0_data := [(lit "t", JStr t); (lit "n", JStr n)] ++ more |}.
Definition spelled : collation :=
  [{| w_sigil := lit "A"; w_toks := [lemma_token (lit "The ") (lit "the") []; lemma_token (lit "Cat ") (lit "cat") []] |};
   {| w_sigil := lit "B"; w_toks := [lemma_token (lit "a ") (lit "a") []; lemma_token (lit "black ") (lit "black") []; lemma_token (lit "cat") (lit "cat") []] |}].
Definition respelled : collation :=
  [{| w_sigil := lit "A"; w_toks := [lemma_token (lit "ye ") (lit "the") [(lit "lang", JStr (lit "en"))]; lemma_token (lit "CAT") (lit "cat") []] |};
   {| w_sigil := lit "B"; w_toks := [lemma_token (lit "A ") (lit "a") []; lemma_token (lit "blak ") (lit "black") [(lit "x", JNum 7)]; lemma_token (lit "kat") (lit "cat") []] |}].
(** A filter that asks for the language, and one that asks for the spelling. *)
Definition by_key (k : str) : props_filter := fun a b =>
  match dget str_eqb k a, dget str_eqb k b with Some (JStr x), Some (JStr y) => str_eqb x y | None, None => true | _, _ => false end.
Definition with_filter (f : option props_filter) : options :=
  {| o_output := lit "table"; o_vertical := false; o_segmentation := false; o_near := false; o_astar := false; o_transp := false; o_filter := f; o_indent := false |}.
Definition shape (r : res output) : option (list (list (option nat))) :=
  match r with Ok (OTable t) => Some (map (fun r => map (option_map (@length token)) (r_cells r)) (t_rows t)) | _ => None end.

Example C57_example :
  same_texts spelled respelled /\ same_answers (Some (by_key (lit "n"))) spelled respelled /\
  shape (collate ascii_cc kahn sample_ratio spelled (with_filter None)) = Some [[Some 1; None; Some 1]; [Some 1; Some 1; Some 1]] /\
  shape (collate ascii_cc kahn sample_ratio respelled (with_filter None)) = Some [[Some 1; None; Some 1]; [Some 1; Some 1; Some 1]].
Proof.
  split; [repeat constructor|]. split.
  - intros f E. injection E as <-. intros a a' b b' Ha Hb. cbn in Ha, Hb.
    repeat (destruct Ha as [Ha|Ha]); try contradiction; repeat (destruct Hb as [Hb|Hb]); try contradiction; injection Ha as <- <-; injection Hb as <- <-; reflexivity.
  - split; vm_compute; reflexivity.
Qed.

(** The condition on the filter is needed: a filter that looks at the spelling sees the difference. *)
Example C57_filter_matters :
  shape (collate ascii_cc kahn sample_ratio respelled (with_filter (Some (by_key (lit "t"))))) <>
  shape (collate ascii_cc kahn sample_ratio respelled (with_filter None)).
Proof. vm_compute. discriminate. Qed.
