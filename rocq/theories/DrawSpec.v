(** Specification of the drawing of a variant graph (C52). *)
From Verif Require Import Py TokenModel SuffixModel IndexModel GraphModel TableModel CollateModel GraphSpec ExportSpec NearSpec DrawModel.
From Coq Require Import Permutation QArith.
Open Scope list_scope.
Open Scope nat_scope.

(** The text with the angle brackets written as character references. *)
Definition without_tags (s : str) : str :=
  flat_map (fun c => if N.eqb c 60 then lit "&lt;" else if N.eqb c 62 then lit "&gt;" else [c]) s.

(** The label of a node: a heading with the rank, then one line per reading with its sigla. *)
Definition label_line (a b : str) : str :=
  lit "<TR><TD ALIGN='LEFT'>" ++ a ++ lit "</TD><TD ALIGN='LEFT'>" ++ b ++ lit "</TD></TR>".
Definition node_label (heading : str) (rank : nat) (lines : list (str * list str)) : str :=
  lit "<<TABLE CELLSPACING=" ++ [34%N] ++ lit "0" ++ [34%N] ++ lit ">" ++
  label_line (lit "<B>" ++ heading ++ lit "</B>") (lit "exact: " ++ str_of_nat rank) ++
  flat_map (fun l => label_line (lit "<FONT FACE='Bukyvede'>" ++ fst l ++ lit "</FONT>") (str_join (lit ", ") (snd l))) lines ++
  lit "</TABLE>>".

(** The lines list every siglum once, with the text of its tokens; different lines have
    different readings, in order. *)
Definition lines_ok (toks : list (str * list token)) (lines : list (str * list str)) : Prop :=
  increasing (map fst lines) /\
  Permutation (flat_map snd lines) (map fst toks) /\
  (forall reading sgs, In (reading, sgs) lines -> sgs <> []) /\
  (forall sg reading, (exists sgs, In (reading, sgs) lines /\ In sg sgs) <->
     exists ts s, In (sg, ts) toks /\ text_of ts s /\ reading = without_tags s).

Definition label_ok (simple : bool) (r : ranking) (v : vid) (vx : vertex) (label : str) : Prop :=
  if simple then (v_label vx <> [] /\ label = v_label vx) \/ (v_label vx = [] /\ label = lit "#")
  else exists k lines, rank_at r v k /\ label = node_label (v_label vx) k lines /\ lines_ok (v_tokens vx) lines.

(** The drawing [d] shows the graph [g] with the ranks [r]; [name] gives the node of a vertex. *)
Record shows (weight_text : Q -> str) (simple : bool) (g : graph) (r : ranking) (name : vid -> str) (d : drawing) : Prop := {
  sh_distinct : forall u v, In u (vertices g) -> In v (vertices g) -> name u = name v -> u = v;
  sh_nodes : Forall2 (fun x n => dn_id n = name (fst x) /\ label_ok simple r (fst x) (snd x) (dn_label n)) (g_verts g) (dr_nodes d);
  sh_edges : Permutation (dr_edges d)
    (map (fun e => {| de_from := name (fst (fst e)); de_to := name (snd (fst e)); de_dashed := false; de_label := snd e |}) (g_edges g) ++
     map (fun e => {| de_from := name (fst (fst e)); de_to := name (snd (fst e)); de_dashed := true; de_label := weight_text (snd e) |}) (g_near g));
  sh_groups : dr_groups d = map (fun kv => map name (snd kv)) (by_rank r)
}.
