(** Model of collatex/edit_graph_aligner.py (the default aligner). *)
From Verif Require Import Py TokenModel SuffixModel IndexModel GraphModel.
Open Scope list_scope.

(** edit_graph_aligner.py:83-87: the properties_filter, a function of two token dictionaries. *)
Definition props_filter := jdict -> jdict -> bool.

(** edit_graph_aligner.py:93-98  filtered_token_data. *)
Definition filtered_token_data (t : token) : res jdict :=
  _ <- dgetE str_eqb k_sigil (tk_data t) ;;
  let d := ddel str_eqb k_sigil (tk_data t) in
  _ <- dgetE str_eqb k_pos d ;;
  Ok (ddel str_eqb k_pos d).

(** Match coordinates (row, rank) and the matches dictionary of MatchCube; a Match
    is a vertex and a witness token. edit_graph_aligner.py:30-33 and 39-42. *)
Definition coord := (Z * Z)%type.
(** edit_graph_aligner.py:44-45 MatchCoordinate.__eq__. *)
Definition coord_eqb (a b : coord) : bool := (Z.eqb (fst a) (fst b) && Z.eqb (snd a) (snd b))%bool.
(** edit_graph_aligner.py:56 and 91: MatchCube.matches. *)
Definition cube := list (coord * (vid * token)).

(** edit_graph_aligner.py:104-110 *)
Definition has_match (m : cube) (y x : Z) : bool := dmem coord_eqb (y, x) m.
(** edit_graph_aligner.py:108-110 get_match. *)
Definition get_match (m : cube) (y x : Z) : res (vid * token) := dgetE coord_eqb (y, x) m.

Section Cube.
  Variable ti : tindex.
  Variable start : nat.                      (* start_token_position_for_witness *)
  Variable varr : list (option vid).         (* vertex_array *)
  Variable rank : list (vid * nat).          (* variant_graph_ranking.byVertex *)
  Variable filt : option props_filter.

  (** edit_graph_aligner.py:70-91: body of the innermost loop, for the occurrence
      [gst] of the block in the graph, [wst] in the witness, and offset [i]. *)
  Definition cube_step (wst gst : nat) (m : cube) (i : nat) : res cube :=
    ov <- aget varr (gst + i) ;;
    match ov with
    | None => Raise VertexIsNull
    | Some v =>
      rk <- dgetE Nat.eqb v rank ;;
      let rk := (Z.of_nat rk - 1)%Z in
      let row := (Z.of_nat (wst + i) - Z.of_nat start)%Z in
      tok <- aget (ti_array ti) (wst + i) ;;
      ok <- match filt with
            | None => Ok true
            | Some f =>
              other <- aget (ti_array ti) gst ;;
              d1 <- filtered_token_data tok ;;
              d2 <- filtered_token_data other ;;
              Ok (f d1 d2)
            end ;;
      Ok (if (ok : bool) then dset coord_eqb (row, rk) (v, tok) m else m)
    end.

  (** edit_graph_aligner.py:63-69 *)
  Definition cube_instance (m : cube) (wi : nat * block) : res cube :=
    let '(wst, b) := wi in
    all <- block_instances (ti_sa ti) b ;;
    foldM (fun m gst => foldM (cube_step wst gst) (seq 0 (b_len b)) m)
          (filter (fun p => p <? start) all) m.
End Cube.

(** edit_graph_aligner.py:55-91  MatchCube.__init__ *)
Definition match_cube (ti : tindex) (sigil : str) (varr : list (option vid))
    (rank : list (vid * nat)) (filt : option props_filter) : res cube :=
  start <- start_token_position ti sigil ;;
  foldM (cube_instance ti start varr rank filt) (block_instances_for_witness ti sigil) [].

(** edit_graph_aligner.py:113-132  ScoreType and Score (the parent is kept as its
    coordinates). *)
Inductive stype := SMatch | SMismatch | SAddition | SDeletion | SEmpty.
(** edit_graph_aligner.py:121-129 Score; the parent is kept as its coordinates. *)
Record score := { s_type : stype; s_x : nat; s_y : nat; s_px : nat; s_py : nat; s_g : Z }.

(** edit_graph_aligner.py:135-155  Scorer. *)
Definition determine_type (x y : nat) (parent : score) : stype :=
  if x =? s_x parent then SAddition else if y =? s_y parent then SDeletion else SEmpty.
(** edit_graph_aligner.py:139-141 Scorer.gap. *)
Definition sc_gap (x y : nat) (parent : score) : score :=
  {| s_type := determine_type x y parent; s_x := x; s_y := y;
     s_px := s_x parent; s_py := s_y parent; s_g := (s_g parent - 1)%Z |}.
(** edit_graph_aligner.py:143-147 Scorer.score. *)
Definition sc_score (m : cube) (x y : nat) (parent : score) : score :=
  if has_match m (Z.of_nat y - 1) (Z.of_nat x - 1) then
    {| s_type := SMatch; s_x := x; s_y := y; s_px := s_x parent; s_py := s_y parent;
       s_g := (s_g parent + 1)%Z |}
  else
    {| s_type := SMismatch; s_x := x; s_y := y; s_px := s_x parent; s_py := s_y parent;
       s_g := (s_g parent - 1)%Z |}.

(** edit_graph_aligner.py:280: the cell 0,0. *)
Definition score0 : score :=
  {| s_type := SEmpty; s_x := 0; s_y := 0; s_px := 0; s_py := 0; s_g := 0%Z |}.

(** edit_graph_aligner.py:311-316  calculate_from_upper. *)
Definition from_upper (m : cube) (x y : nat) (up : score) : score :=
  if has_match m (Z.of_nat y - 2) (Z.of_nat x - 1) then sc_score m x y up else sc_gap x y up.

(** Python's [max(a, b, c, key=global_score)]: the first maximal one. edit_graph_aligner.py:308. *)
Definition max3 (a b c : score) : score :=
  let ab := if (s_g a <? s_g b)%Z then b else a in
  if (s_g ab <? s_g c)%Z then c else ab.

(** edit_graph_aligner.py:274-309  fill_needleman_wunsch_table.  The Python code
    fills a pre-allocated table: first row, first column, then the rest by rows;
    here each row is computed from the previous one (same values, since a cell only
    depends on its upper, left and upper-left neighbours). *)
Fixpoint first_row (x n : nat) (prev : score) : list score :=
  match n with
  | 0 => []
  | S n' => let c := sc_gap x 0 prev in c :: first_row (S x) n' c
  end.
(** edit_graph_aligner.py:302-309: the rest of the cells of one row. *)
Fixpoint fill_cells (m : cube) (y x : nat) (ul left : score) (ups : list score) : list score :=
  match ups with
  | [] => []
  | up :: ups' =>
    let c := max3 (sc_score m x y ul) (sc_gap x y left) (from_upper m x y up) in
    c :: fill_cells m y (S x) up c ups'
  end.
(** edit_graph_aligner.py:288-295 and 301-309: one row. *)
Definition next_row (m : cube) (y : nat) (prev : list score) : list score :=
  match prev with
  | [] => []
  | p0 :: ps => let c0 := sc_gap 0 y p0 in c0 :: fill_cells m y 1 p0 c0 ps
  end.
(** edit_graph_aligner.py:288-309: the rows after the first. *)
Fixpoint more_rows (m : cube) (y n : nat) (prev : list score) : list (list score) :=
  match n with
  | 0 => []
  | S n' => let r := next_row m y prev in r :: more_rows m (S y) n' r
  end.
(** [cols] = len(variant_graph_ranks) >= 1, [rows] = number of witness tokens. edit_graph_aligner.py:274-309. *)
Definition fill_table (m : cube) (cols rows : nat) : list (list score) :=
  let r0 := score0 :: first_row 1 (cols - 1) score0 in
  r0 :: more_rows m 1 rows r0.

(** edit_graph_aligner.py:158-177  ScoreIterator: walk from the last cell back
    along the parents to (0,0). *)
Fixpoint score_iter (fuel : nat) (cells : list (list score)) (x y : nat) : res (list score) :=
  if (x =? 0) && (y =? 0) then Ok []
  else match fuel with
       | 0 => Raise OutOfFuel
       | S f =>
         row <- aget cells y ;;
         s <- aget row x ;;
         rest <- score_iter f cells (s_px s) (s_py s) ;;
         Ok (s :: rest)
       end.

(** edit_graph_aligner.py:318-333  align_matching_tokens. *)
Definition align_step (m : cube) (st : list (nat * vid) * list vid) (s : score)
  : res (list (nat * vid) * list vid) :=
  let '(aligned, used) := st in
  match s_type s with
  | SMatch =>
    '(v, t) <- get_match m (Z.of_nat (s_y s) - 1) (Z.of_nat (s_x s) - 1) ;;
    if existsb (Nat.eqb v) used then Ok (aligned, used)
    else Ok (dset Nat.eqb (tk_pos t) v aligned, v :: used)
  | _ => Ok (aligned, used)
  end.
(** edit_graph_aligner.py:318-333, with the ScoreIterator of 158-177. *)
Definition align_matching_tokens (m : cube) (cells : list (list score)) : res (list (nat * vid)) :=
  row0 <- aget cells 0 ;;
  let X := length row0 - 1 in
  let Y := length cells - 1 in
  path <- score_iter (X + Y) cells X Y ;;
  '(aligned, _) <- foldM (align_step m) path ([], []) ;;
  Ok aligned.

(** edit_graph_aligner.py:349-359  update_token_position_to_vertex: the position of
    a token is its '_token_array_position' entry, [tk_pos] here. *)
Definition update_p2v (p2v t2v aligned : list (nat * vid)) : list (nat * vid) :=
  fold_left (fun d '(p, v) => dset Nat.eqb p v d) aligned
            (fold_left (fun d '(p, v) => dset Nat.eqb p v d) t2v p2v).

(** edit_graph_aligner.py:335-347  update_token_to_vertex_array. *)
Definition update_varr (range : list nat) (p2v : list (nat * vid)) (varr : list (option vid))
  : res (list (option vid)) :=
  foldM (fun a p => v <- dgetE Nat.eqb p p2v ;; aset a p (Some v)) range varr.

(** list(set(...)) of ranks: only its length matters. edit_graph_aligner.py:220. *)
Fixpoint nat_set (l : list nat) : list nat :=
  match l with
  | [] => []
  | x :: l' => let r := nat_set l' in if existsb (Nat.eqb x) r then r else x :: r
  end.

(** edit_graph_aligner.py:189-192, 201, 207: what the aligner keeps from one witness to the next. *)
Record astate := {
  a_graph : graph;
  a_t2v : list (nat * vid);          (* token_to_vertex *)
  a_p2v : list (nat * vid);          (* token_position_to_vertex *)
  a_varr : list (option vid)         (* vertex_array *)
}.

Section Aligner.
  Variable topo : graph -> res (list vid).

  (** edit_graph_aligner.py:203-210: the first witness. *)
  Definition first_step (ti : tindex) (w : iwitness) : res astate :=
    '(g, t2v) <- merge empty_graph (iw_sigil w) (iw_toks w) [] ;;
    let p2v := update_p2v [] t2v [] in
    r <- get_range_for_witness ti (iw_sigil w) ;;
    varr <- update_varr r p2v (repeat None (length (ti_array ti))) ;;
    Ok {| a_graph := g; a_t2v := t2v; a_p2v := p2v; a_varr := varr |}.

  (** edit_graph_aligner.py:213-260: one further witness.  [byVertex.get(v)] of a
      vertex without rank is None in Python and is treated as one more rank value
      here (all vertices have a rank).  TranspositionDetection.detect
      (transposition_handling.py:15-20) reads the attribute [additions], which the
      aligner does not have. *)
  Definition next_step (filt : option props_filter) (detect : bool) (ti : tindex)
      (st : astate) (w : iwitness) : res astate :=
    let g := a_graph st in
    rk <- ranking_of topo g ;;
    ranks <- mapM (fun v => dgetE Nat.eqb v (by_vertex rk)) (vertices g) ;;
    let cols := length (nat_set ranks) - 1 in
    m <- match_cube ti (iw_sigil w) (a_varr st) (by_vertex rk) filt ;;
    let cells := fill_table m cols (length (iw_toks w)) in
    aligned <- align_matching_tokens m cells ;;
    '(g', new) <- merge g (iw_sigil w) (iw_toks w) aligned ;;
    let t2v := fold_left (fun d '(p, v) => dset Nat.eqb p v d) new (a_t2v st) in
    let p2v := update_p2v (a_p2v st) t2v aligned in
    r <- get_range_for_witness ti (iw_sigil w) ;;
    wp2v <- foldM (fun d p => v <- dgetE Nat.eqb p p2v ;; Ok (dset Nat.eqb p v d)) r [] ;;
    varr <- update_varr r wp2v (a_varr st) ;;
    if detect then Raise AttributeError
    else Ok {| a_graph := g'; a_t2v := t2v; a_p2v := p2v; a_varr := varr |}.

  (** edit_graph_aligner.py:195-260  EditGraphAligner.collate. *)
  Definition align_all (filt : option props_filter) (detect : bool) (ti : tindex) : res astate :=
    match ti_wits ti with
    | [] => Raise IndexError
    | w :: ws => st <- first_step ti w ;; foldM (next_step filt detect ti) ws st
    end.

  (** edit_graph_aligner.py:195-260 and core_functions.py:50-51, on a new graph. *)
  Definition aligner_collate (filt : option props_filter) (detect : bool) (c : collation)
    : res (tindex * graph) :=
    ti <- prepare c ;;
    st <- align_all filt detect ti ;;
    Ok (ti, a_graph st).
End Aligner.
