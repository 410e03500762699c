(** Model of collatex/near_matching.py. *)
From Verif Require Import Py TokenModel SuffixModel IndexModel GraphModel.
From Coq Require Import QArith.
Open Scope list_scope.
Open Scope nat_scope.

(** core_classes.py:216-217  str(vertex) *)
Definition vertex_str (vx : vertex) : str :=
  match v_label vx with [] => lit "no label" | l => l end.

(** near_matching.py:19-27  witnesses_on_path: set of sigla, as a list without
    order (not used by perform_near_match). *)
Definition witnesses_on_path (g : graph) (r : ranking) (lo hi : nat) : res (list str) :=
  foldM (fun acc rk =>
           vs <- dgetE Nat.eqb rk (by_rank r) ;;
           foldM (fun acc v => vx <- get_vertex g v ;;
                               Ok (fold_left (fun a k => if existsb (str_eqb k) a then a else a ++ [k])
                                             (map fst (v_tokens vx)) acc)) vs acc)
        (seq (lo + 1) (hi - (lo + 1))) [].

Section Near.
  Variable topo : graph -> res (list vid).
  (** Levenshtein.ratio: an external function. *)
  Variable ratio : str -> str -> Q.

  (** near_matching.py:74-80: the first candidate with the maximal ratio; [max] of an
      empty dictionary is a ValueError. *)
  Definition best_candidate (g : graph) (src : vid) (cands : list vid) : res (vid * Q) :=
    sx <- get_vertex g src ;;
    o <- foldM (fun best c =>
                  cx <- get_vertex g c ;;
                  let q := ratio (vertex_str sx) (vertex_str cx) in
                  Ok (match best with
                      | None => Some (c, q)
                      | Some (_, b) => if Qle_bool q b then best else Some (c, q)
                      end))
               cands None ;;
    match o with Some r => Ok r | None => Raise ValueError end.

  (** near_matching.py:63-86: one incoming edge of v. *)
  Definition near_edge_step (st : graph * ranking) (e : vid * vid * str) : res (graph * ranking) :=
    let '(g, r) := st in
    let '((src, v), _) := e in
    rv <- dgetE Nat.eqb v (by_vertex r) ;;
    rs <- dgetE Nat.eqb src (by_vertex r) ;;
    if Z.ltb 1 (Z.of_nat rv - Z.of_nat rs) then
      ds <- mapM (fun e => a <- dgetE Nat.eqb (snd (fst e)) (by_vertex r) ;;
                           b <- dgetE Nat.eqb (fst (fst e)) (by_vertex r) ;;
                           Ok (Z.of_nat a - Z.of_nat b)%Z)
                 (out_edges g src) ;;
      if existsb (Z.eqb 1) ds then Ok (g, r)
      else
        ls <- mapM (fun rk => dgetE Nat.eqb rk (by_rank r)) (seq rs (rv - rs)) ;;
        let cands := filter (fun c => negb (c =? src)) (concat ls) in
        '(winner, w) <- best_candidate g src cands ;;
        let g' := connect_near g winner src w in
        r' <- ranking_of topo g' ;;
        Ok (g', r')
    else Ok (g, r).

  (** near_matching.py:29-90  perform_near_match.  The regular edges are not changed
      by the loop, so in_edges may be read from the current graph. *)
  Definition perform_near_match (g : graph) (r : ranking) : res (graph * ranking) :=
    order <- topo g ;;
    '(g', _) <- foldM (fun st v => foldM near_edge_step (in_edges (fst st) v) st)
                      (rev order) (g, r) ;;
    r' <- ranking_of topo g' ;;
    Ok (g', r').
End Near.
