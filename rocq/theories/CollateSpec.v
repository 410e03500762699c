(** Specification vocabulary for the properties of collate. *)
From Verif Require Import Py TokenModel IndexModel GraphModel AlignModel TableModel CollateModel GraphSpec.
From Coq Require Import Permutation.

(** Distinct, non-empty sigla. *)
Definition good_sigla (c : collation) : Prop := NoDup (map w_sigil c) /\ ~ In [] (map w_sigil c).
Definition no_empty_witness (c : collation) : Prop := Forall (fun w => w_toks w <> []) c.
(** No token is compared as a dollar sign followed by a number. *)
Definition no_markers (c : collation) : Prop :=
  forall w t k, In w c -> In t (w_toks w) -> t0_str t <> lit "$" ++ str_of_nat k.
(** Some token of the witness number [i] is compared as the dollar sign and the number [j] of
    another witness, which is not the last one: of an earlier witness or, if there is a
    properties filter, of any other one. *)
Definition marker_clash (filt : option props_filter) (c : collation) : Prop :=
  exists i w t j, nth_error c i = Some w /\ In t (w_toks w) /\ t0_str t = lit "$" ++ str_of_nat j /\
    S j < length c /\ (j < i \/ (filt <> None /\ i < j)).
(** Every token has a textual 't' value. *)
Definition has_texts (c : collation) : Prop :=
  forall w t, In w c -> In t (w_toks w) -> exists s, dget str_eqb (lit "t") (t0_data t) = Some (JStr s).

(** The witness paths [W] run through the graph [g], and [g] consists of nothing else. *)
Record made_of_paths (g : graph) (W : list wpath) : Prop := {
  mp_simple : forall p, In p W -> NoDup (chain p);
  mp_verts : forall v, In v (vertices g) <-> v = v_start \/ v = v_end \/ exists p, In p W /\ In v (chain p);
  mp_edges : forall u v, edge g u v <-> exists p, In p W /\ In (u, v) (pairs (chain p));
  mp_tokens : forall v vx, dget Nat.eqb v (g_verts g) = Some vx ->
    forall sg ts, In (sg, ts) (v_tokens vx) <-> exists p, In p W /\ fst p = sg /\ In (v, ts) (snd p);
  mp_ends : forall v vx, v = v_start \/ v = v_end -> dget Nat.eqb v (g_verts g) = Some vx -> v_tokens vx = []
}.

Definition outputs_with_text : list str := [lit "xml"; lit "tei"; lit "csv"; lit "tsv"].
Definition outputs : list str :=
  [lit "svg"; lit "svg_simple"; lit "graph"; lit "json"; lit "html"; lit "html2"; lit "table"] ++ outputs_with_text.

(** The representation asked for. *)
Definition representation_ok (name : str) (x : output) : Prop :=
  match x with
  | OSvg false _ => name = lit "svg"
  | OSvg true _ => name = lit "svg_simple"
  | OGraph _ => name = lit "graph"
  | OJson _ => name = lit "json"
  | OHtml _ => name = lit "html"
  | OHtml2 _ => name = lit "html2"
  | OTable _ => name = lit "table"
  | OXml _ => name = lit "xml"
  | OTei _ => name = lit "tei"
  | OCsv _ => name = lit "csv" \/ name = lit "tsv"
  end.

(** The same call with another output argument. *)
Definition set_output (o : options) (name : str) : options :=
  {| o_output := name; o_vertical := o_vertical o; o_segmentation := o_segmentation o; o_near := o_near o;
     o_astar := o_astar o; o_transp := o_transp o; o_filter := o_filter o; o_indent := o_indent o |}.
Definition set_segmentation (o : options) (b : bool) : options :=
  {| o_output := o_output o; o_vertical := o_vertical o; o_segmentation := b; o_near := o_near o;
     o_astar := o_astar o; o_transp := o_transp o; o_filter := o_filter o; o_indent := o_indent o |}.

Definition set_transp (o : options) (b : bool) : options :=
  {| o_output := o_output o; o_vertical := o_vertical o; o_segmentation := o_segmentation o; o_near := o_near o;
     o_astar := o_astar o; o_transp := b; o_filter := o_filter o; o_indent := o_indent o |}.

Definition set_near (o : options) (b : bool) : options :=
  {| o_output := o_output o; o_vertical := o_vertical o; o_segmentation := o_segmentation o; o_near := b;
     o_astar := o_astar o; o_transp := o_transp o; o_filter := o_filter o; o_indent := o_indent o |}.

(** A collation built with add_plain_witness from pairs of siglum and text. *)
Definition plain_collation (cc : cclass) (l : list (str * str)) : res collation :=
  foldM (fun c '(sg, text) => add_plain_witness cc c sg text) l collation_empty.

(** The dollar sign is not a word character, the decimal digits are. *)
Definition dollar_apart (cc : cclass) : Prop :=
  isw cc 36%N = false /\ forall c, (48 <= c <= 57)%N -> isw cc c = true.

(** The variant graph while the collation runs: after the first witness and [k] more. *)
Definition stage (topo : graph -> res (list vid)) (filt : option props_filter) (c : collation) (k : nat) : res graph :=
  ti <- prepare c ;;
  match ti_wits ti with
  | [] => Raise IndexError
  | w :: ws =>
    st <- first_step ti w ;;
    st' <- foldM (next_step topo filt false ti) (firstn k ws) st ;;
    Ok (a_graph st')
  end.

(** Tables that agree in everything but the order of the entries in the dictionaries of
    their columns. *)
Definition same_table (t1 t2 : table) : Prop :=
  t_rows t1 = t_rows t2 /\
  Forall2 (fun c1 c2 => c_variant c1 = c_variant c2 /\ Permutation (c_cells c1) (c_cells c2)) (t_columns t1) (t_columns t2).

Definition same_output (x1 x2 : output) : Prop :=
  match x1, x2 with
  | OTable t1, OTable t2 | OHtml t1, OHtml t2 | OHtml2 t1, OHtml2 t2 => same_table t1 t2
  | _, _ => x1 = x2
  end.

(** No token of the user uses the two keys collatex adds. *)
Definition no_internal_keys (c : collation) : Prop :=
  forall w t, In w c -> In t (w_toks w) -> ~ In (lit "_sigil") (map fst (t0_data t)) /\
    ~ In (lit "_token_array_position") (map fst (t0_data t)).

(** The filter accepts token [y] of [w] together with the token of [w1] that stands [k]
    places before token [x]; up to these tokens both witnesses have the same text. *)
Definition accepted_at (f : props_filter) (k : nat) (w1 : witness) (x : nat) (w : witness) (y : nat) : Prop :=
  k <= x /\ k <= y /\
  (exists b a, nth_error (w_toks w) y = Some b /\ nth_error (w_toks w1) (x - k) = Some a /\ f (t0_data b) (t0_data a) = true) /\
  (forall d, d <= k -> exists b a, nth_error (w_toks w) (y - d) = Some b /\ nth_error (w_toks w1) (x - d) = Some a /\ t0_str b = t0_str a).
