(** Model of collatex/astar.py, of the edit graph of collatex/experimental_astar_aligner.py and of
    the cell scoring of collatex/suffix_based_scorer.py. *)
From Verif Require Import Py.
Open Scope list_scope.

(** A node of the edit graph is known by its position (y, x): the table has one node object for
    every position, and nodes are compared by identity. experimental_astar_aligner.py:150-154 AstarEditGraphNode: y and x. *)
Definition pnode := (nat * nat)%type.
(** astar.py:31, 36, 40: nodes are compared by identity, here by position. *)
Definition pnode_eqb (a b : pnode) : bool := (fst a =? fst b) && (snd a =? snd b).
(** astar.py:31, 36, 40: [child in visited] and [child in heap]. *)
Definition pmem (a : pnode) (l : list pnode) : bool := existsb (pnode_eqb a) l.

(** astar.py:55-59 and experimental_astar_aligner.py:150-157: the attributes of a node. The scores
    are counted in halves (score_cell uses 0.5). *)
Record anode := { an_g : Z; an_h : Z; an_parent : option pnode; an_match : bool; an_segments : nat }.
(** astar.py:56-59 and experimental_astar_aligner.py:151-157: a new node. *)
Definition fresh_node : anode := {| an_g := 0; an_h := 0; an_parent := None; an_match := false; an_segments := 0 |}.

(** experimental_astar_aligner.py:103-104: the table of nodes. *)
Definition atable := pnode -> anode.
(** astar.py:35-39 and suffix_based_scorer.py:46, 58-73: assignments to the attributes of a node. *)
Definition aupd (t : atable) (p : pnode) (n : anode) : atable := fun q => if pnode_eqb q p then n else t q.

(** [heap.sort(key=...)]: a stable sort. astar.py:22. *)
Fixpoint insert_by (key : pnode -> Z) (p : pnode) (l : list pnode) : list pnode :=
  match l with
  | [] => [p]
  | q :: l' => if (key p <=? key q)%Z then p :: l else q :: insert_by key p l'
  end.
(** astar.py:22 heap.sort. *)
Definition sort_by (key : pnode -> Z) (l : list pnode) : list pnode := fold_right (insert_by key) [] l.

(** [l[i - 1]] for i >= 0: for i = 0 the last element. experimental_astar_aligner.py:128-129 and 172-173. *)
Definition before {A} (l : list A) (i : nat) : res A :=
  match i with
  | O => match l with [] => Raise IndexError | x :: _ => Ok (last l x) end
  | S j => match nth_error l j with Some x => Ok x | None => Raise IndexError end
  end.

Section Search.
  Variable T : Type.
  (** Scorer.match_function: 0 full match, 1 near match, anything else no match.  The methods
      [match] and [near_match] (suffix_based_scorer.py:105-136) change nothing but the keys of a
      dictionary that their results do not depend on. *)
  Variable mf : T -> T -> Z.
  Variable wa wb : list T.    (* tokens_witness_a, tokens_witness_b *)

  (** suffix_based_scorer.py:42-74  Scorer.score_cell. *)
  Definition score_cell (n parent : anode) (ta tb : T) (y x : nat) (edit_operation : nat) : anode :=
    let set_g g := {| an_g := g; an_h := an_h n; an_parent := an_parent n; an_match := an_match n; an_segments := an_segments n |} in
    if (x =? 0) || (y =? 0) then set_g (an_g parent - 2)%Z
    else if edit_operation =? 0 then
      let m := mf ta tb in
      if (m =? 0)%Z then
        {| an_g := an_g parent; an_h := an_h n; an_parent := an_parent n; an_match := true;
           an_segments := if negb (an_match parent) then S (an_segments parent) else an_segments n |}
      else if (m =? 1)%Z then set_g (an_g parent - 1)%Z
      else set_g (an_g parent - 4)%Z
    else set_g (an_g parent - 2)%Z.

  (** experimental_astar_aligner.py:170-181  move_cost; also gives the node [other] as changed. *)
  Definition move_cost (t : atable) (self other : pnode) : res (Z * anode) :=
    let '(y, x) := other in
    ta <- before wa x ;;
    tb <- before wb y ;;
    let op := if (Z.of_nat x - 1 =? Z.of_nat (snd self))%Z && (Z.of_nat y - 1 =? Z.of_nat (fst self))%Z then 0 else 1 in
    let n := score_cell (t other) (t self) ta tb y x op in
    let cost := (an_g n - an_g (t self))%Z in
    Ok ((- cost)%Z, n).

  (** experimental_astar_aligner.py:164-167  is_end_node. *)
  Definition is_end (p : pnode) : bool := (fst p =? length wb) && (snd p =? length wa).

  (** experimental_astar_aligner.py:193-207  create_childnodes. *)
  Definition create_childnodes (p : pnode) : list pnode :=
    let '(y, x) := p in
    (if y <? length wb then [(y + 1, x)] else []) ++
    (if x <? length wa then [(y, x + 1)] else []) ++
    (if (y <? length wb) && (x <? length wa) then [(y + 1, x + 1)] else []).

  (** experimental_astar_aligner.py:210-211 and suffix_based_scorer.py:76-90: the length of b is given twice. *)
  Definition heuristic (p : pnode) : Z :=
    let lb := Z.of_nat (length wb) in
    (2 * Z.abs ((lb - Z.of_nat (snd p)) - (lb - Z.of_nat (fst p))))%Z.

  (** astar.py:30-41: one child. *)
  Definition visit_child (visited : list pnode) (node : pnode) (st : atable * list pnode) (child : pnode) : res (atable * list pnode) :=
    let '(t, heap) := st in
    if pmem child visited then Ok st
    else
      let old_g := an_g (t child) in
      '(c, n) <- move_cost t node child ;;
      let tentative := (an_g (t node) + c)%Z in
      if negb (pmem child heap) || (tentative <? old_g)%Z then
        let n' := {| an_g := tentative; an_h := heuristic child; an_parent := Some node; an_match := an_match n; an_segments := an_segments n |} in
        Ok (aupd t child n', if negb (pmem child heap) then heap ++ [child] else heap)
      else
        Ok (aupd t child {| an_g := old_g; an_h := an_h n; an_parent := an_parent n; an_match := an_match n; an_segments := an_segments n |}, heap).

  (** astar.py:47-52  reconstruct_path; [fuel] bounds the number of steps. *)
  Fixpoint reconstruct (fuel : nat) (t : atable) (current : pnode) (path : list pnode) : res (list pnode) :=
    match fuel with
    | O => Raise OutOfFuel
    | S fuel' =>
      match an_parent (t current) with
      | None => Ok path
      | Some p => reconstruct fuel' t p (current :: path)
      end
    end.

  (** astar.py:21-45  the loop of search: None if the heap becomes empty. *)
  Fixpoint search_loop (fuel : nat) (t : atable) (heap visited : list pnode) : res (option (list pnode) * atable) :=
    match heap with
    | [] => Ok (None, t)
    | _ =>
      match fuel with
      | O => Raise OutOfFuel
      | S fuel' =>
        match sort_by (fun p => (an_g (t p) + an_h (t p))%Z) heap with
        | [] => Raise OutOfFuel
        | node :: heap' =>
          if is_end node then
            path <- reconstruct (S (length wa + length wb)) t node [] ;; Ok (Some path, t)
          else
            let visited' := node :: visited in
            '(t', heap'') <- foldM (visit_child visited' node) (create_childnodes node) (t, heap') ;;
            search_loop fuel' t' heap'' visited'
        end
      end
    end.

  (** astar.py:11-45  search, from table[0][0] of a new table. *)
  Definition search : res (option (list pnode) * atable) :=
    search_loop (S (S (length wa) * S (length wb))) (fun _ => fresh_node) [(0, 0)] [].

  (** experimental_astar_aligner.py:140-146  newer_add_to_superbase: the tokens added.  A negative
      end of a slice counts from the end of the list. *)
  Definition py_slice_to {A} (l : list A) (lo : nat) (hi : Z) : list A :=
    let n := Z.of_nat (length l) in
    let hi := Z.max 0 (if (hi <? 0)%Z then hi + n else hi)%Z in
    skipn lo (firstn (Z.to_nat hi) l).
  (** experimental_astar_aligner.py:140-146, with last_x and last_y as arguments. *)
  Definition add_to_superbase (lastx lasty : nat) (x y : nat) : list T :=
    if ((0 <? Z.of_nat x - Z.of_nat lastx - 1) || (0 <? Z.of_nat y - Z.of_nat lasty - 1))%Z
    then py_slice_to wa lastx (Z.of_nat x - 1) ++ py_slice_to wb lasty (Z.of_nat y - 1)
    else [].

  (** experimental_astar_aligner.py:96-138  _align_astar: the alignment as pairs of positions
      (position in b, position in a), in the order of the assignments, and the new superbase.
      Simplification: the vertex of a token of the superbase is always known. *)
  Fixpoint read_path (t : atable) (path : list pnode) (lastx lasty : nat) : list (nat * nat) * list T :=
    match path with
    | [] => ([], add_to_superbase lastx lasty (length wa) (length wb))
    | (y, x) :: path' =>
      if an_match (t (y, x)) then
        let '(al, sb) := read_path t path' x y in
        ((y - 1, x - 1) :: al, add_to_superbase lastx lasty x y ++ match nth_error wa (x - 1) with Some tok => [tok] | None => [] end ++ sb)
      else read_path t path' lastx lasty
    end.
  (** experimental_astar_aligner.py:96-138, the whole of it. *)
  Definition align_astar : res (list (nat * nat) * list T) :=
    '(p, t) <- search ;;
    match p with
    | None => Raise TypeError      (* iteration over None *)
    | Some path => Ok (read_path t path 0 0)
    end.
End Search.
