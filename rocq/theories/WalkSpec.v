(** Specification vocabulary for the alignment of a witness with a variant graph. *)
From Verif Require Import Py TokenModel IndexModel GraphModel GraphSpec.
Open Scope list_scope.
Open Scope nat_scope.

(** An alignment of the tokens 1, 2, ... of a witness with the ranks 1, 2, ... of a graph is
    a walk that starts before the first token and the first rank.  A move passes the next
    token and the next rank together, only the next rank, or only the next token. *)
Inductive move := Pair | Omit | Add.

(** Passing a token and a rank together is preferred to passing only one of them, and passing
    only a rank to passing only a token. *)
Definition sooner (m m' : move) : Prop :=
  match m, m' with Pair, Omit | Pair, Add | Omit, Add => True | _, _ => False end.

Record walker := { at_rank : nat; at_token : nat; points : Z; met : list (nat * nat) }.

Section Walk.
  (** [M y x]: token number [y] matches rank number [x]. *)
  Variable M : nat -> nat -> bool.

  (** A move counts +1 if it is a match and -1 otherwise.  [Pair] is a match if the token
      matches the rank.  [Add] is a match if the token and also the token before it match
      the rank the walk stands on: this is the scorer's peculiarity. *)
  Definition is_hit (m : move) (y x : nat) : bool :=
    match m with
    | Pair => M y x
    | Omit => false
    | Add => M (y - 1) x && M y x
    end.

  Definition step (w : walker) (m : move) : walker :=
    let x := match m with Add => at_rank w | _ => S (at_rank w) end in
    let y := match m with Omit => at_token w | _ => S (at_token w) end in
    {| at_rank := x; at_token := y;
       points := if is_hit m y x then points w + 1 else points w - 1;
       met := if is_hit m y x then met w ++ [(y, x)] else met w |}.

  Definition walk (ms : list move) : walker :=
    fold_left step ms {| at_rank := 0; at_token := 0; points := 0; met := [] |}.

  (** The usual score: only passing a token and a rank together can be a match. *)
  Definition plain_step (w : walker) (m : move) : walker :=
    let x := match m with Add => at_rank w | _ => S (at_rank w) end in
    let y := match m with Omit => at_token w | _ => S (at_token w) end in
    let hit := match m with Pair => M y x | _ => false end in
    {| at_rank := x; at_token := y;
       points := if hit then points w + 1 else points w - 1;
       met := if hit then met w ++ [(y, x)] else met w |}.
  Definition plain_walk (ms : list move) : walker :=
    fold_left plain_step ms {| at_rank := 0; at_token := 0; points := 0; met := [] |}.

  (** Of equally good ways to a point, one that ends with a preferred move is taken: every way to
      the same point that ends with a move preferred to the one the walk makes there has fewer
      points. *)
  Definition preferred (ms : list move) : Prop := forall before m after, ms = before ++ m :: after ->
    forall m', sooner m' m -> forall other, at_rank (walk (other ++ [m'])) = at_rank (walk (before ++ [m])) ->
      at_token (walk (other ++ [m'])) = at_token (walk (before ++ [m])) ->
      (points (walk (other ++ [m'])) < points (walk (before ++ [m])))%Z.
End Walk.

(** The vertex [v] carries a token that is compared as [s]. *)
Definition reads (g : graph) (v : vid) (s : str) : Prop :=
  exists vx sg ts t, dget Nat.eqb v (g_verts g) = Some vx /\ In (sg, ts) (v_tokens vx) /\ In t ts /\ tk_str t = s.

(** Token number [y] of [w] is compared like a token on a vertex of rank [x]. *)
Definition same_reading (g : graph) (rk : vid -> nat) (w : witness) (y x : nat) : Prop :=
  exists t v, 1 <= y /\ nth_error (w_toks w) (y - 1) = Some t /\ In v (vertices g) /\ rk v = x /\ reads g v (t0_str t).

(** [path] are the vertices on which the tokens of [w] stand in [g]. *)
Definition stands_on (g : graph) (w : witness) (path : list vid) : Prop :=
  NoDup path /\ length path = length (w_toks w) /\
  forall i t v, nth_error (w_toks w) i = Some t -> nth_error path i = Some v ->
    exists vx t', dget Nat.eqb v (g_verts g) = Some vx /\ In (w_sigil w, [t']) (v_tokens vx) /\ tk_str t' = t0_str t.

(** The graph consists of one path from start to end, with the vertices [p] in between. *)
Definition single_path (g : graph) (p : list vid) : Prop :=
  NoDup (v_start :: p ++ [v_end]) /\
  (forall v, In v (vertices g) <-> In v (v_start :: p ++ [v_end])) /\
  (forall u v, edge g u v <-> In (u, v) (pairs (v_start :: p ++ [v_end]))).

(** All witnesses have the same token strings, namely [ss]. *)
Definition all_read (c : collation) (ss : list str) : Prop := forall w, In w c -> map t0_str (w_toks w) = ss.
