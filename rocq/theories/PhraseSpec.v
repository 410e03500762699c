(** Specification of the phrases of a witness: the longest stretches of consecutive linked
    tokens whose vertices follow each other in the graph without alternative. *)
From Verif Require Import Py TokenModel IndexModel GraphModel GraphSpec.

(** From [a] one can only go to [b], and [b] can only be reached from [a]. *)
Definition only_way (g : graph) (a b : vid) : Prop :=
  (forall w, edge g a w <-> w = b) /\ (forall u, edge g u b <-> u = a).

(** The link of a token. *)
Definition link_of (linked : list (nat * vid)) (t : token) : option vid := dget Nat.eqb (tk_pos t) linked.

(** [ph] is the stretch [p] of linked tokens with their vertices. *)
Definition linked_as (linked : list (nat * vid)) (p : list token) (ph : list (vid * token)) : Prop :=
  Forall2 (fun t x => link_of linked t = Some (fst x) /\ snd x = t) p ph.

(** The phrase ending in vertex [a] cannot be continued with the first of [rest]. *)
Definition cannot_go_on (g : graph) (linked : list (nat * vid)) (a : vid) (rest : list token) : Prop :=
  match rest with
  | [] => True
  | t :: _ => forall b, link_of linked t = Some b -> ~ only_way g a b
  end.

Inductive phrased (g : graph) (linked : list (nat * vid)) : list token -> list (list (vid * token)) -> Prop :=
| phrased_none : forall skipped, Forall (fun t => link_of linked t = None) skipped -> phrased g linked skipped []
| phrased_some : forall skipped p ph v t rest phs,
    Forall (fun t => link_of linked t = None) skipped ->
    linked_as linked p (ph ++ [(v, t)]) ->
    (forall a b, In (a, b) (pairs (map fst (ph ++ [(v, t)]))) -> only_way g a b) ->
    cannot_go_on g linked v rest ->
    phrased g linked rest phs ->
    phrased g linked (skipped ++ p ++ rest) ((ph ++ [(v, t)]) :: phs).
