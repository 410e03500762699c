(** Model of collatex/core_functions.py:33-89  collate(). *)
From Verif Require Import Py TokenModel SuffixModel IndexModel GraphModel AlignModel TableModel
  NearModel ExportModel.
From Coq Require Import QArith.
Open Scope nat_scope.

(** Keyword arguments of collate.  [layout] matters only when it is "vertical". core_functions.py:33-34. *)
Record options := {
  o_output : str;
  o_vertical : bool;
  o_segmentation : bool;
  o_near : bool;
  o_astar : bool;
  o_transp : bool;
  o_filter : option props_filter;
  o_indent : bool
}.

(** Results.  The svg and html outputs are rendered by external tools (graphviz,
    IPython); the model stops at the data they are rendered from. core_functions.py:65-89. *)
Inductive output :=
| OSvg (simple : bool) (g : graph)
| OGraph (g : graph)
| OJson (v : jval)
| OHtml (t : table)
| OHtml2 (t : table)
| OTable (t : table)
| OXml (s : str)
| OTei (s : str)
| OCsv (s : str).

Section Collate.
  Variable cc : cclass.
  Variable topo : graph -> res (list vid).
  Variable ratio : str -> str -> Q.

  (** core_functions.py:42-63: the graph and its ranking.  With astar=True,
      [algorithm.collate(graph)] lacks the required argument [collation] of
      ExperimentalAstarAligner.collate (experimental_astar_aligner.py:21): TypeError. *)
  Definition collate_graph (c : collation) (o : options) : res (graph * ranking) :=
    '(_, g) <- (if o_astar o then Raise TypeError
                else aligner_collate topo (o_filter o) (o_transp o) c) ;;
    rk <- ranking_of topo g ;;
    '(g, rk) <- (if o_near o then
                   if o_segmentation o then Raise SegmentationError
                   else perform_near_match topo ratio g rk
                 else Ok (g, rk)) ;;
    if o_segmentation o then
      g' <- join cc g ;;
      rk' <- ranking_of topo g' ;;
      Ok (g', rk')
    else Ok (g, rk).

  (** core_functions.py:64-89: the requested representation. *)
  Definition render (c : collation) (o : options) (g : graph) (rk : ranking) : res output :=
    let out := o_output o in
    if str_eqb out (lit "svg") then Ok (OSvg false g)
    else if str_eqb out (lit "svg_simple") then Ok (OSvg true g)
    else if str_eqb out (lit "graph") then Ok (OGraph g)
    else
      t <- construct_table (map w_sigil c) g rk ;;
      if str_eqb out (lit "json") then
        if o_vertical o then Ok (OJson (export_vertical_json t (map w_sigil c)))
        else Ok (OJson (export_json false t))
      else if str_eqb out (lit "html") then Ok (OHtml t)
      else if str_eqb out (lit "html2") then Ok (OHtml2 t)
      else if str_eqb out (lit "table") then Ok (OTable t)
      else if str_eqb out (lit "xml") then s <- export_xml t ;; Ok (OXml s)
      else if str_eqb out (lit "tei") then s <- export_tei cc (o_indent o) t ;; Ok (OTei s)
      else if str_eqb out (lit "csv") then s <- export_csv false t ;; Ok (OCsv s)
      else if str_eqb out (lit "tsv") then s <- export_csv true t ;; Ok (OCsv s)
      else Raise UnknownOutput.

  (** core_functions.py:33-89. *)
  Definition collate (c : collation) (o : options) : res output :=
    '(g, rk) <- collate_graph c o ;; render c o g rk.

  (** core_functions.py:36-40: collate called with a dictionary. *)
  Definition collate_dict (d : jdict) (o : options) : res output :=
    c <- create_from_dict cc d None ;; collate c o.

  (** Effect of collate on the Collation object: TokenIndex._prepare_token_array
      (tokenindex.py:44-66) writes '_sigil' and '_token_array_position' into the token
      data of the witnesses, up to the first empty witness (which raises). *)
  Definition restamp (w : witness) (pos : nat) : witness :=
    {| w_sigil := w_sigil w;
       w_toks := map (fun t => {| t0_str := tk_str t; t0_data := tk_data t |})
                     (stamp (w_sigil w) pos (w_toks w)) |}.
  (** tokenindex.py:49-65, on the witnesses. *)
  Fixpoint collation_after (pos : nat) (c : collation) : collation :=
    match c with
    | [] => []
    | w :: c' =>
      if length (w_toks w) =? 0 then w :: c'
      else restamp w pos :: collation_after (pos + length (w_toks w) + 1) c'
    end.
  (** With astar=True no TokenIndex is prepared. core_functions.py:43-51. *)
  Definition collate_effect (c : collation) (o : options) : collation :=
    if o_astar o then c else collation_after 0 c.
End Collate.

(** collate's default arguments (core_functions.py:33-34). *)
Definition default_options : options :=
  {| o_output := lit "table"; o_vertical := false; o_segmentation := true; o_near := false;
     o_astar := false; o_transp := false; o_filter := None; o_indent := false |}.
