(** Model of collatex/suffix_based_scorer.py (the preparation of witnesses and the match functions),
    of the classes of collatex/extended_suffix_array.py it uses, and of
    collatex/experimental_astar_aligner.py:21-64 (ExperimentalAstarAligner.collate). *)
From Verif Require Import Py TokenModel SuffixModel IndexModel GraphModel AlignModel AStarModel.
From Coq Require Import QArith.
Open Scope list_scope.
Open Scope nat_scope.

(** extended_suffix_array.py:32-39, 56-60: a Block is known by its ranges, an Occurrence by its
    token range and its block.  A RangeSet is here the ascending list of its elements; two of them are
    equal when their elements are (ClusterShell/RangeSet.py __eq__), two blocks when their ranges are. *)
Record occurrence := { oc_range : list nat; oc_block : list nat }.

(** Scorer object (suffix_based_scorer.py:28-37): blocks and global_tokens_to_occurrences.  The
    entries None that [match] leaves behind with setdefault (:108-109) are not kept: looking them
    up gives the same as an absent key. *)
Record scorer := { sr_blocks : list (list nat); sr_map : list (nat * occurrence) }.
(** suffix_based_scorer.py:29-37: a new Scorer. *)
Definition new_scorer : scorer := {| sr_blocks := []; sr_map := [] |}.

(** extended_suffix_array.py:69-70: position in token_range. *)
Definition mem_nat (n : nat) (l : list nat) : bool := existsb (Nat.eqb n) l.
(** extended_suffix_array.py:43-46: blocks are compared by their ranges. *)
Fixpoint nats_eqb (a b : list nat) : bool :=
  match a, b with
  | [], [] => true
  | x :: a', y :: b' => (x =? y) && nats_eqb a' b'
  | _, _ => false
  end.

(** RangeSet.contiguous (ClusterShell/RangeSet.py:297-307) on an ascending list: the maximal runs
    of consecutive numbers. *)
Fixpoint runs_of (l : list nat) : list (list nat) :=
  match l with
  | [] => []
  | x :: l' =>
    match runs_of l' with
    | (y :: r) :: rest => if y =? x + 1 then (x :: y :: r) :: rest else [x] :: (y :: r) :: rest
    | rest => [x] :: rest
    end
  end.

(** extended_suffix_array.py:65-67  lower_end. *)
Definition lower_end (o : occurrence) : nat := hd 0 (oc_range o).

(** [sorted(occurrences, key=attrgetter('lower_end'))]: a stable sort. suffix_based_scorer.py:174. *)
Fixpoint insert_occurrence (o : occurrence) (l : list occurrence) : list occurrence :=
  match l with
  | [] => [o]
  | p :: l' => if lower_end o <=? lower_end p then o :: l else p :: insert_occurrence o l'
  end.
(** suffix_based_scorer.py:174 sorted. *)
Definition sort_occurrences (l : list occurrence) : list occurrence := fold_right insert_occurrence [] l.

(** suffix_based_scorer.py:165-173: the occurrences of the blocks in a range of the token array. *)
Definition block_occurrences (range : list nat) (b : list nat) : list occurrence :=
  map (fun r => {| oc_range := r; oc_block := b |}) (runs_of (filter (fun n => mem_nat n range) b)).
(** suffix_based_scorer.py:165-174. *)
Definition witness_occurrences (range : list nat) (blocks : list (list nat)) : list occurrence :=
  sort_occurrences (flat_map (block_occurrences range) blocks).

(** suffix_based_scorer.py:181-252  _get_non_overlapping_repeating_blocks: the first block taken
    from the queue gives a Python [range] (block.py:66-67), which has no method [intersection] (:200), so that 201-252 are never reached. *)
Definition select_blocks (ti : tindex) : res (list (list nat)) :=
  bs <- split_lcp (ti_lcp ti) ;;
  match bs with
  | [] => Ok []
  | _ => Raise AttributeError
  end.

(** suffix_based_scorer.py:140-151  _build_tokens_to_occurrences. *)
Fixpoint tokens_to_occurrences (ts : list token) (counter : nat) (occs : list occurrence) (m : list (nat * occurrence))
  : list (nat * occurrence) :=
  match ts with
  | [] => m
  | t :: ts' =>
    tokens_to_occurrences ts' (counter + 1) occs
      (fold_left (fun m o => if mem_nat counter (oc_range o) then dset Nat.eqb (tk_pos t) o m else m) occs m)
  end.

(** suffix_based_scorer.py:92-99 and 156-176  prepare_witness. *)
Definition prepare_witness (ti : tindex) (sc : scorer) (w : iwitness) : res scorer :=
  range <- get_range_for_witness ti (iw_sigil w) ;;
  blocks <- match sr_blocks sc with [] => select_blocks ti | bs => Ok bs end ;;
  start <- aget range 0 ;;
  let m := tokens_to_occurrences (iw_toks w) start (witness_occurrences range blocks) [] in
  Ok {| sr_blocks := blocks; sr_map := fold_left (fun d '(k, o) => dset Nat.eqb k o d) m (sr_map sc) |}.

(** suffix_based_scorer.py:105-124  match. *)
Definition scorer_match (filt : option props_filter) (sc : scorer) (ta tb : token) : Z :=
  match dget Nat.eqb (tk_pos ta) (sr_map sc), dget Nat.eqb (tk_pos tb) (sr_map sc) with
  | Some oa, Some ob =>
    if nats_eqb (oc_block oa) (oc_block ob) then
      match filt with
      | None => 0%Z
      | Some f => if f (tk_data ta) (tk_data tb) then 0%Z else (-1)%Z
      end
    else (-1)%Z
  | _, _ => (-1)%Z
  end.

(** suffix_based_scorer.py:126-136  near_match; [ratio] is the Levenshtein ratio, exact. *)
Definition scorer_near_match (ratio : str -> str -> Q) (filt : option props_filter) (sc : scorer) (ta tb : token) : Z :=
  if (scorer_match filt sc ta tb =? 0)%Z then 0%Z
  else if negb (Qle_bool (ratio (tk_str ta) (tk_str tb)) (6 # 10)) then 1%Z else (-1)%Z.

(** experimental_astar_aligner.py:21-64  collate, for any scorer: [prep] is its prepare_witness,
    [mf] its match_function.  Tokens are told apart by their positions. *)
Section AstarCollate.
  Variable SC : Type.
  Variable prep : SC -> iwitness -> res SC.
  Variable mf : SC -> token -> token -> Z.

  (** experimental_astar_aligner.py:119-133 the alignment dictionary of _align_astar, from the pairs of positions. *)
  Definition alignment_of (superbase ts : list token) (t2v : list (nat * vid)) (pairs : list (nat * nat)) : res (list (nat * vid)) :=
    foldM (fun al '(pb, pa) =>
      ta <- aget superbase pa ;;
      tb <- aget ts pb ;;
      v <- dgetE Nat.eqb (tk_pos ta) t2v ;;
      Ok (dset Nat.eqb (tk_pos tb) v al)) pairs [].

  (** experimental_astar_aligner.py:30, 36, 53, 61: what collate keeps from one witness to the next. *)
  Record acollate := { ac_scorer : SC; ac_graph : graph; ac_t2v : list (nat * vid); ac_superbase : list token }.

  (** experimental_astar_aligner.py:39-61 one witness. *)
  Definition astar_step (st : acollate) (w : iwitness) : res acollate :=
    sc <- prep (ac_scorer st) w ;;
    '(pairs, sb) <- align_astar token (mf sc) (ac_superbase st) (iw_toks w) ;;
    al <- alignment_of (ac_superbase st) (iw_toks w) (ac_t2v st) pairs ;;
    '(g, new) <- merge (ac_graph st) (iw_sigil w) (iw_toks w) al ;;
    Ok {| ac_scorer := sc; ac_graph := g;
          ac_t2v := fold_left (fun d '(k, v) => dset Nat.eqb k v d) new (ac_t2v st); ac_superbase := sb |}.

  (** :20-63 collate. *)
  Definition astar_collate (g : graph) (sc : SC) (ws : list iwitness) : res acollate :=
    match ws with
    | [] => Raise IndexError
    | w :: ws' =>
      '(g1, t2v) <- merge g (iw_sigil w) (iw_toks w) [] ;;
      sc1 <- prep sc w ;;
      foldM astar_step ws' {| ac_scorer := sc1; ac_graph := g1; ac_t2v := t2v; ac_superbase := iw_toks w |}
    end.
End AstarCollate.

(** experimental_astar_aligner.py:17: the scorer is given the Collation in place of a token index;
    a Collation has no method get_range_for_witness (core_classes.py:21-46). *)
Definition astar_aligner_collate (filt : option props_filter) (g : graph) (ws : list iwitness) : res (acollate scorer) :=
  astar_collate scorer (fun _ _ => Raise AttributeError) (scorer_match filt) g new_scorer ws.
