(** collate with token dictionaries as objects: the caller's token dictionaries are mutable and the
    same dictionary object may be given for several tokens.  (In the rest of the model token data
    are values.)  Only witnesses given as lists of tokens are modelled here: the dictionaries of a
    plain text witness are created by Witness.__init__ and belong to one token each. *)
From Verif Require Import Py TokenModel SuffixModel IndexModel GraphModel AlignModel TableModel NearModel ExportModel CollateModel.
From Coq Require Import QArith.
Open Scope nat_scope.

(** The dictionary objects: contents by object identity. core_classes.py:178: token_data is the caller's object. *)
Definition heap := nat -> jdict.
(** tokenindex.py:59-60: an assignment to an entry of token_data. *)
Definition hset (h : heap) (r : nat) (d : jdict) : heap := fun x => if x =? r then d else h x.

(** core_classes.py:165-181  a Token object: its token_string is read once, when it is created;
    token_data is a reference to the caller's dictionary. *)
Record rtok := { rt_str : str; rt_ref : nat }.
(** core_classes.py:184-187, 195-197 a Witness object. *)
Record rwit := { rw_sigil : str; rw_toks : list rtok }.

(** core_classes.py:165-178 Token.__init__ with the object number r. *)
Definition rtoken_init (h : heap) (r : nat) : res (jval * nat) :=
  '(v, _) <- token_init (h r) ;; Ok (v, r).
(** core_classes.py:199: a token whose string is not a str makes join fail. *)
Definition rtoken_str (v : jval * nat) : res rtok :=
  match fst v with JStr s => Ok {| rt_str := s; rt_ref := snd v |} | _ => Raise TypeError end.
(** core_classes.py:184-199  Witness.__init__ for data with the entry 'tokens'. *)
Definition rwitness_init (h : heap) (d : str * list nat) : res rwit :=
  ts <- mapM (rtoken_init h) (snd d) ;;
  ts' <- mapM rtoken_str ts ;;
  Ok {| rw_sigil := fst d; rw_toks := ts' |}.

(** tokenindex.py:58-61: the two entries are written into the dictionary objects. *)
Fixpoint rstamp (sigil : str) (pos : nat) (ts : list rtok) (h : heap) : heap :=
  match ts with
  | [] => h
  | t :: ts' =>
    rstamp sigil (pos + 1) ts'
      (hset h (rt_ref t) (dset str_eqb k_pos (JNum (Z.of_nat pos)) (dset str_eqb k_sigil (JStr sigil) (h (rt_ref t)))))
  end.

(** A Token object in the token array: one of a witness, or a marker. tokenindex.py:62-64. *)
Inductive slot := STok (pos : nat) (t : rtok) | SMark (m : token).
(** tokenindex.py:58-62: the tokens of one witness, in order. *)
Fixpoint slots (pos : nat) (ts : list rtok) : list slot :=
  match ts with [] => [] | t :: ts' => STok pos t :: slots (pos + 1) ts' end.
(** The token as it is seen when its dictionary has the contents of the heap. edit_graph_aligner.py:81-86: token_data is read when the token is used. *)
Definition deref (h : heap) (s : slot) : token :=
  match s with
  | STok pos t => {| tk_pos := pos; tk_str := rt_str t; tk_data := h (rt_ref t) |}
  | SMark m => m
  end.

(** tokenindex.py:44-66  _prepare_token_array. *)
Fixpoint rprepare_loop (ws : list rwit) (idx counter tap : nat)
    (ranges : list (str * list nat)) (arr : list slot) (out : list (str * list slot)) (h : heap)
  : res (list (str * list nat) * list slot * list (str * list slot) * heap) :=
  match ws with
  | [] => Ok (ranges, arr, out, h)
  | w :: ws' =>
    let n := length (rw_toks w) in
    r <- range_of counter (counter + n) ;;
    let ts := slots tap (rw_toks w) in
    rprepare_loop ws' (idx + 1) (counter + n + 1) (tap + n + 1)
      (dset str_eqb (rw_sigil w) r ranges)
      (arr ++ ts ++ [SMark (marker idx (tap + n) (rw_sigil w))])
      (out ++ [(rw_sigil w, ts)])
      (rstamp (rw_sigil w) tap (rw_toks w) h)
  end.

(** tokenindex.py:29-36  prepare().  All entries are written before any is read, and nothing is
    written afterwards: the tokens are looked at with the heap reached here. *)
Definition rprepare (ws : list rwit) (h : heap) : res (tindex * heap) :=
  '(ranges, arr, out, h') <- rprepare_loop ws 0 0 0 [] [] [] h ;;
  arr' <- pop_last arr ;;
  let toks := map (deref h') arr' in
  sa <- suffix_array (map tk_str toks) ;;
  blocks <- split_lcp (sa_LCP sa) ;;
  inst <- construct_instances toks (sa_SA sa) blocks ;;
  Ok ({| ti_wits := map (fun '(sg, ts) => {| iw_sigil := sg; iw_toks := map (deref h') ts |}) out;
         ti_ranges := ranges; ti_array := toks; ti_sa := sa_SA sa;
         ti_lcp := sa_LCP sa; ti_blocks := blocks; ti_instances := inst |}, h').

(** [token.token_data['_token_array_position']] of the token object number [p] in the token array. edit_graph_aligner.py:352 and 357. *)
Definition entry_pos (ti : tindex) (p : nat) : res nat :=
  t <- aget (ti_array ti) p ;;
  v <- dgetE str_eqb k_pos (tk_data t) ;;
  match v with JNum z => Ok (Z.to_nat z) | _ => Raise TypeError end.

(** edit_graph_aligner.py:349-359  update_token_position_to_vertex. *)
Definition rput (ti : tindex) (d : list (nat * vid)) (e : nat * vid) : res (list (nat * vid)) :=
  q <- entry_pos ti (fst e) ;; Ok (dset Nat.eqb q (snd e) d).
(** edit_graph_aligner.py:349-359, for the new vertices and then for the aligned tokens. *)
Definition rupdate_p2v (ti : tindex) (p2v t2v aligned : list (nat * vid)) : res (list (nat * vid)) :=
  d <- foldM (rput ti) t2v p2v ;; foldM (rput ti) aligned d.

Section Collate.
  Variable cc : cclass.
  Variable topo : graph -> res (list vid).
  Variable ratio : str -> str -> Q.

  (** edit_graph_aligner.py:203-210. *)
  Definition rfirst_step (ti : tindex) (w : iwitness) : res astate :=
    '(g, t2v) <- merge empty_graph (iw_sigil w) (iw_toks w) [] ;;
    p2v <- rupdate_p2v ti [] t2v [] ;;
    r <- get_range_for_witness ti (iw_sigil w) ;;
    varr <- update_varr r p2v (repeat None (length (ti_array ti))) ;;
    Ok {| a_graph := g; a_t2v := t2v; a_p2v := p2v; a_varr := varr |}.

  (** edit_graph_aligner.py:213-260. *)
  Definition rnext_step (filt : option props_filter) (detect : bool) (ti : tindex)
      (st : astate) (w : iwitness) : res astate :=
    let g := a_graph st in
    rk <- ranking_of topo g ;;
    ranks <- mapM (fun v => dgetE Nat.eqb v (by_vertex rk)) (vertices g) ;;
    let cols := length (nat_set ranks) - 1 in
    m <- match_cube ti (iw_sigil w) (a_varr st) (by_vertex rk) filt ;;
    let cells := fill_table m cols (length (iw_toks w)) in
    aligned <- align_matching_tokens m cells ;;
    '(g', new) <- merge g (iw_sigil w) (iw_toks w) aligned ;;
    let t2v := fold_left (fun d '(p, v) => dset Nat.eqb p v d) new (a_t2v st) in
    p2v <- rupdate_p2v ti (a_p2v st) t2v aligned ;;
    r <- get_range_for_witness ti (iw_sigil w) ;;
    wp2v <- foldM (fun d p => v <- dgetE Nat.eqb p p2v ;; Ok (dset Nat.eqb p v d)) r [] ;;
    varr <- update_varr r wp2v (a_varr st) ;;
    if detect then Raise AttributeError
    else Ok {| a_graph := g'; a_t2v := t2v; a_p2v := p2v; a_varr := varr |}.

  (** edit_graph_aligner.py:195-260: the first witness, then the others. *)
  Definition ralign_all (filt : option props_filter) (detect : bool) (ti : tindex) : res astate :=
    match ti_wits ti with
    | [] => Raise IndexError
    | w :: ws => st <- rfirst_step ti w ;; foldM (rnext_step filt detect ti) ws st
    end.

  (** core_functions.py:36-63. *)
  Definition rcollate_graph (ws : list rwit) (h : heap) (o : options) : res (graph * ranking) :=
    g <- (if o_astar o then Raise TypeError
          else '(ti, _) <- rprepare ws h ;; st <- ralign_all (o_filter o) (o_transp o) ti ;; Ok (a_graph st)) ;;
    rk <- ranking_of topo g ;;
    '(g, rk) <- (if o_near o then
                   if o_segmentation o then Raise SegmentationError
                   else perform_near_match topo ratio g rk
                 else Ok (g, rk)) ;;
    if o_segmentation o then
      g' <- join cc g ;;
      rk' <- ranking_of topo g' ;;
      Ok (g', rk')
    else Ok (g, rk).

  (** core_functions.py:33-89: collate called with data whose token dictionaries are the objects
      named by the references; [render] only uses the sigla of the witnesses. *)
  Definition rcollate (h : heap) (data : list (str * list nat)) (o : options) : res output :=
    ws <- mapM (rwitness_init h) data ;;
    '(g, rk) <- rcollate_graph ws h o ;;
    render cc (map (fun w => {| w_sigil := rw_sigil w; w_toks := [] |}) ws) o g rk.

  (** The dictionary objects after a call that returns. tokenindex.py:58-60. *)
  Definition rcollate_after (h : heap) (data : list (str * list nat)) : res heap :=
    ws <- mapM (rwitness_init h) data ;;
    '(_, h') <- rprepare ws h ;;
    Ok h'.
End Collate.
