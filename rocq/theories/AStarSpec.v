(** Specification of the edit graph (C43, C49, C50): nodes are pairs (number of tokens of b, number
    of tokens of a) read so far.  Costs are counted in halves. *)
From Verif Require Import Py AStarModel.
Open Scope list_scope.

Section Edit.
  Variable T : Type.
  Variable mf : T -> T -> Z.    (* 0: match, 1: near match, anything else: no match *)
  Variable wa wb : list T.

  (** A full match costs nothing, a near match 0.5, a mismatch 2. *)
  Definition match_cost (m : Z) : Z := if (m =? 0)%Z then 0%Z else if (m =? 1)%Z then 1%Z else 4%Z.

  (** An edit step: read a token of b only, of a only (cost 1 each), or one of each. *)
  Inductive edit_step : pnode -> pnode -> Z -> Prop :=
  | es_addition : forall y x, y < length wb -> x <= length wa -> edit_step (y, x) (S y, x) 2%Z
  | es_omission : forall y x, y <= length wb -> x < length wa -> edit_step (y, x) (y, S x) 2%Z
  | es_both : forall y x a b, nth_error wa x = Some a -> nth_error wb y = Some b -> edit_step (y, x) (S y, S x) (match_cost (mf a b)).

  (** [edit_path p path q c]: the nodes of [path], read after [p], lead to [q] at the cost [c]. *)
  Inductive edit_path : pnode -> list pnode -> pnode -> Z -> Prop :=
  | ep_nil : forall p, edit_path p [] p 0%Z
  | ep_cons : forall p q path r c c', edit_step p q c -> edit_path q path r c' -> edit_path p (q :: path) r (c + c')%Z.

  Definition start_node : pnode := (0, 0).
  Definition end_node : pnode := (length wb, length wa).
End Edit.

(** The new superbase: the two sequences woven together at the pairs (position in b, position in a).
    Before each pair stand the tokens of a and then those of b that were passed over, then the token
    of a that is paired.  After the last pair the last token of each sequence is missing. *)
Definition stretch {T} (l : list T) (from to : nat) : list T := skipn from (firstn to l).
Fixpoint woven {T} (a b : list T) (i j : nat) (pairs : list (nat * nat)) : list T :=
  match pairs with
  | [] => stretch a i (length a - 1) ++ stretch b j (length b - 1)
  | (j', i') :: pairs' => stretch a i i' ++ stretch b j j' ++ stretch a i' (S i') ++ woven a b (S i') (S j') pairs'
  end.
