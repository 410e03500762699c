(** Model of the progress report of the construction of the suffix array: collatex/linsuffarr.py:139-294 with
    [_trace] (line 59) set. *)
From Verif Require Import Py SuffixModel.
Open Scope list_scope.
Open Scope nat_scope.

(** linsuffarr.py:139-149  _nbOperations; [fuel] bounds the recursion, n is always enough. *)
Fixpoint nb_loop (fuel n : nat) : nat :=
  match fuel with
  | 0 => 0
  | S f =>
    if n <? 2 then 0
    else
      let n0 := (n + 2) / 3 in
      let n02 := n0 + n / 3 in
      3 * n02 + n0 + nb_loop f n02
  end.
(** linsuffarr.py:139-149  _nbOperations(n). *)
Definition nb_operations (n : nat) : nat := nb_loop n n.

Section Trace.
  (** linsuffarr.py:152-158  _traceSuffixArray(operations, totalOperations): what printing does.  Under Python 2 it
      returns, under Python 3 [print >> _stderr] raises TypeError. *)
  Variable report : nat -> nat -> res unit.

  (** linsuffarr.py:152-158  one report; [log] has the pairs of numbers reported so far. *)
  Definition tell (ops total : nat) (log : list (nat * nat)) : res (list (nat * nat)) :=
    _ <- report ops total ;; Ok (log ++ [(ops, total)]).

  (** linsuffarr.py:161-281  _suffixArrayWithTrace(s, SA, n, K, operations, totalOperations): the new contents of SA, the
      operations returned and the numbers reported. *)
  Fixpoint dc3_traced (fuel : nat) (s SA : list nat) (n K ops total : nat) (log : list (nat * nat)) : res (list nat * nat * list (nat * nat)) :=
    match fuel with
    | 0 => Raise OutOfFuel
    | S f =>
      log <- tell ops total log ;;
      let n0 := (n + 2) / 3 in
      let n1 := (n + 1) / 3 in
      let n2 := n / 3 in
      let n02 := n0 + n2 in
      let SA12 := repeat 0 (n02 + 3) in
      let s12 := filter (fun i => negb (i mod 3 =? 0)) (seq 0 (n + (n0 - n1))) ++ repeat 0 3 in
      SA12 <- radixPass s12 SA12 (skipn 2 s) n02 K ;;
      log <- tell (ops + n02) total log ;;
      s12 <- radixPass SA12 s12 (skipn 1 s) n02 K ;;
      log <- tell (ops + n02 + n02) total log ;;
      SA12 <- radixPass s12 SA12 s n02 K ;;
      log <- tell (ops + n02 + n02 + n02) total log ;;
      '(name, _, s12) <- foldM (name_step s n0 SA12) (seq 0 n02) (0, None, s12) ;;
      '(s12, SA12, ops, log) <-
         (if name <? n02 then
            '(SA12, ops, log) <- dc3_traced f s12 SA12 n02 (name + 1) (ops + n02 + n02 + n02) total log ;;
            log <- tell ops total log ;;
            '(s12, _) <- foldM (fun '(s12, i) p => s12' <- aset s12 p (i + 1) ;; Ok (s12', i + 1))
                               (firstn n02 SA12) (s12, 0) ;;
            Ok (s12, SA12, ops, log)
          else
            log <- tell (ops + n02 + n02 + n02 + nb_operations n02) total log ;;
            '(SA12, _) <- foldM (fun '(SA12, i) x =>
                                   SA12' <- aset SA12 (if x =? 0 then length SA12 - 1 else x - 1) i ;;
                                   Ok (SA12', i + 1))
                                (firstn n02 s12) (SA12, 0) ;;
            Ok (s12, SA12, ops + n02 + n02 + n02 + nb_operations n02, log)) ;;
      '(s0, _) <- foldM (fun '(s0, j) x =>
                           if x <? n0 then s0' <- aset s0 j (3 * x) ;; Ok (s0', j + 1)
                           else Ok (s0, j))
                        (firstn n02 SA12) (repeat 0 n0, 0) ;;
      SA0 <- radixPass s0 (repeat 0 n0) s n0 K ;;
      log <- tell (ops + n0) total log ;;
      SA <- merge_loop n s s12 SA12 SA0 n n0 n02 0 (n0 - n1) 0 SA ;;
      Ok (SA, ops + n0, log)
    end.

  (** linsuffarr.py:284-294 and 411-454  SuffixArray.__init__ with [_trace] set: the object, and the numbers reported by
      the construction itself.  The other messages (lines 424-432, 456) are left out, those of LCP are in [lcp_reports]. *)
  Definition suffix_array_traced (toks : list str) : res (suffarr * list (nat * nat)) :=
    let voc := sorted_set toks in
    ids <- mapM (tok_id voc) toks ;;
    let n := length toks in
    '(SA, _, log) <- dc3_traced (S n) (ids ++ repeat 0 3) (repeat 0 (n + 3)) n (S (length voc)) 0 (nb_operations n) [] ;;
    let SA := firstn n SA in
    Ok ({| sa_voc := voc; sa_string := ids; sa_SA := SA; sa_LCP := lcp_array ids SA |}, log).
End Trace.

(** linsuffarr.py:386-399  LCP with [_trace] set: the pairs of numbers reported for a text of [length] tokens. *)
Definition lcp_reports (length : nat) : list (nat * nat) :=
  let delta := Nat.max (length / 100) 1 in
  map (fun i => (i + 1, length)) (filter (fun i => i mod delta =? 0) (seq 0 length)) ++ [(length, length)].
