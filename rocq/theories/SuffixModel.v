(** Model of collatex/linsuffarr.py: radix pass, the Karkkainen-Sanders (DC3)
    suffix array construction, the LCP array, SuffixArray.__init__ and find.
    Arrays are lists; every read and write is bounds-checked and yields
    [Raise IndexError] where Python would raise.  C-int overflow of
    [array('i')] is not modelled. *)
From Verif Require Import Py.

(** linsuffarr.py:83-136  _radixPass(a, b, r, n, K).  Returns the new contents of
    the output array [b] (Python updates it in place). *)
Definition radix_count (a r : list nat) (n : nat) (c : list nat) : res (list nat) :=
  foldM (fun c i =>
           ai <- aget a i ;; ri <- aget r ai ;; ci <- aget c ri ;; aset c ri (ci + 1))
        (seq 0 n) c.

(** linsuffarr.py:127-132: the exclusive prefix sums. *)
Definition radix_prefix (K : nat) (c : list nat) : res (list nat * nat) :=
  foldM (fun '(c, sum) i => t <- aget c i ;; c' <- aset c i sum ;; Ok (c', sum + t))
        (seq 0 (K + 1)) (c, 0).

(** linsuffarr.py:134-136: the elements are put in their places. *)
Definition radix_place (l r b c : list nat) : res (list nat * list nat) :=
  foldM (fun '(b, c) ai =>
           ri <- aget r ai ;; ci <- aget c ri ;;
           b' <- aset b ci ai ;; c' <- aset c ri (ci + 1) ;; Ok (b', c'))
        l (b, c).

(** linsuffarr.py:83-136, the whole of it. *)
Definition radixPass (a b r : list nat) (n K : nat) : res (list nat) :=
  c <- radix_count a r n (repeat 0 (K + 1)) ;;
  '(c, _) <- radix_prefix K c ;;
  '(b, _) <- radix_place (firstn n a) r b c ;;
  Ok b.

(** Python slices [s[i:]] and [s[i:i+k]] for i >= 0. linsuffarr.py:807. *)
Definition slice {A} (s : list A) (i k : nat) : list A := firstn k (skipn i s).

(** linsuffarr.py:811-817: neither smaller nor greater. *)
Fixpoint nats_eqb (a b : list nat) : bool :=
  match a, b with
  | [], [] => true
  | x :: a', y :: b' => (x =? y) && nats_eqb a' b'
  | _, _ => false
  end.

(** Python's [<=] on int tuples / int arrays. linsuffarr.py:253-256, 811-813. *)
Fixpoint nats_leb (a b : list nat) : bool :=
  match a, b with
  | [], _ => true
  | _ :: _, [] => false
  | x :: a', y :: b' => if x <? y then true else if x =? y then nats_leb a' b' else false
  end.
(** linsuffarr.py:811, 813. *)
Definition nats_ltb (a b : list nat) : bool := negb (nats_leb b a).

(** linsuffarr.py:203-212  naming loop of _suffixArrayWithTrace.  The initial
    [c = [-1]*3] differs from every slice of an array of naturals and is
    represented by [None]. *)
Definition name_step (s : list nat) (n0 : nat) (SA12 : list nat)
    (st : nat * option (list nat) * list nat) (i : nat)
  : res (nat * option (list nat) * list nat) :=
  let '(name, c, s12) := st in
  p <- aget SA12 i ;;
  let cSA := slice s p 3 in
  let same := match c with Some c' => nats_eqb cSA c' | None => false end in
  let name' := if same then name else name + 1 in
  let c' := if same then c else Some cSA in
  s12' <- (if p mod 3 =? 1 then aset s12 (p / 3) name' else aset s12 (p / 3 + n0) name') ;;
  Ok (name', c', s12').

(** linsuffarr.py:246-256  position of the current SA12 suffix, and the test
    whether it precedes (or equals) the current SA0 suffix. *)
Definition pos12 (n0 v : nat) : nat := if v <? n0 then v * 3 + 1 else (v - n0) * 3 + 2.

(** linsuffarr.py:253-256. *)
Definition merge_test (s s12 : list nat) (n0 v j : nat) : res bool :=
  let i := pos12 n0 v in
  if v <? n0 then
    si <- aget s i ;; a <- aget s12 (v + n0) ;;
    sj <- aget s j ;; b <- aget s12 (j / 3) ;;
    Ok (nats_leb [si; a] [sj; b])
  else
    si <- aget s i ;; si1 <- aget s (i + 1) ;; a <- aget s12 (v - n0 + 1) ;;
    sj <- aget s j ;; sj1 <- aget s (j + 1) ;; b <- aget s12 (j / 3 + n0) ;;
    Ok (nats_leb [si; si1; a] [sj; sj1; b]).

(** linsuffarr.py:263-266 and 273-279  the two draining loops. *)
Definition drain0 (SA0 : list nat) (p n0 k : nat) (SA : list nat) : res (list nat * nat) :=
  foldM (fun '(SA, k) q => x <- aget SA0 q ;; SA' <- aset SA k x ;; Ok (SA', k + 1))
        (seq p (n0 - p)) (SA, k).

(** linsuffarr.py:272-279: only SA12 suffixes left. *)
Definition drain12 (SA12 : list nat) (n0 t n02 k : nat) (SA : list nat) : res (list nat * nat) :=
  foldM (fun '(SA, k) q => v <- aget SA12 q ;; SA' <- aset SA k (pos12 n0 v) ;; Ok (SA', k + 1))
        (seq t (n02 - t)) (SA, k).

(** linsuffarr.py:245-280  the merge loop.  [int(j / 3)] is integer division
    (exact: j is a multiple of 3 and far below 2^53). *)
Fixpoint merge_loop (fuel : nat) (s s12 SA12 SA0 : list nat) (n n0 n02 p t k : nat)
    (SA : list nat) : res (list nat) :=
  if k <? n then
    match fuel with
    | 0 => Raise OutOfFuel
    | S f =>
      v <- aget SA12 t ;;
      j <- aget SA0 p ;;
      b <- merge_test s s12 n0 v j ;;
      if (b : bool) then
        SA1 <- aset SA k (pos12 n0 v) ;;
        if t + 1 =? n02 then
          '(SA2, k2) <- drain0 SA0 p n0 (k + 1) SA1 ;;
          merge_loop f s s12 SA12 SA0 n n0 n02 n0 (t + 1) (k2 + 1) SA2
        else merge_loop f s s12 SA12 SA0 n n0 n02 p (t + 1) (k + 1) SA1
      else
        SA1 <- aset SA k j ;;
        if p + 1 =? n0 then
          '(SA2, k2) <- drain12 SA12 n0 t n02 (k + 1) SA1 ;;
          merge_loop f s s12 SA12 SA0 n n0 n02 (p + 1) n02 (k2 + 1) SA2
        else merge_loop f s s12 SA12 SA0 n n0 n02 (p + 1) t (k + 1) SA1
    end
  else Ok SA.

(** linsuffarr.py:161-281  _suffixArrayWithTrace(s, SA, n, K) (tracing left out).
    Returns the new contents of [SA].  [fuel] bounds the recursion depth. *)
Fixpoint dc3 (fuel : nat) (s SA : list nat) (n K : nat) : res (list nat) :=
  match fuel with
  | 0 => Raise OutOfFuel
  | S f =>
    let n0 := (n + 2) / 3 in
    let n1 := (n + 1) / 3 in
    let n2 := n / 3 in
    let n02 := n0 + n2 in
    let SA12 := repeat 0 (n02 + 3) in
    let s12 := filter (fun i => negb (i mod 3 =? 0)) (seq 0 (n + (n0 - n1))) ++ repeat 0 3 in
    SA12 <- radixPass s12 SA12 (skipn 2 s) n02 K ;;
    s12 <- radixPass SA12 s12 (skipn 1 s) n02 K ;;
    SA12 <- radixPass s12 SA12 s n02 K ;;
    '(name, _, s12) <- foldM (name_step s n0 SA12) (seq 0 n02) (0, None, s12) ;;
    '(s12, SA12) <-
       (if name <? n02 then
          SA12 <- dc3 f s12 SA12 n02 (name + 1) ;;
          '(s12, _) <- foldM (fun '(s12, i) p => s12' <- aset s12 p (i + 1) ;; Ok (s12', i + 1))
                             (firstn n02 SA12) (s12, 0) ;;
          Ok (s12, SA12)
        else
          '(SA12, _) <- foldM (fun '(SA12, i) x =>
                                 (* SA12[s12_i - 1]: Python index -1 is the last element *)
                                 SA12' <- aset SA12 (if x =? 0 then length SA12 - 1 else x - 1) i ;;
                                 Ok (SA12', i + 1))
                              (firstn n02 s12) (SA12, 0) ;;
          Ok (s12, SA12)) ;;
    '(s0, _) <- foldM (fun '(s0, j) x =>
                         if x <? n0 then s0' <- aset s0 j (3 * x) ;; Ok (s0', j + 1)
                         else Ok (s0, j))
                      (firstn n02 SA12) (repeat 0 n0, 0) ;;
    SA0 <- radixPass s0 (repeat 0 n0) s n0 K ;;
    merge_loop n s s12 SA12 SA0 n n0 n02 0 (n0 - n1) 0 SA
  end.

(** linsuffarr.py:297-351  _longestCommonPrefix(string, string, start1, start2).
    The code first swaps so that the second sequence is the shorter one; both
    lengths are compared up to the end of the shorter sequence. *)
Fixpoint lcp_count {A} (eqb : A -> A -> bool) (a b : list A) : nat :=
  match a, b with
  | x :: a', y :: b' => if eqb x y then S (lcp_count eqb a' b') else 0
  | _, _ => 0
  end.
(** linsuffarr.py:297-351, of two suffixes of one string. *)
Definition longest_common_prefix (s : list nat) (p q : nat) : nat :=
  lcp_count Nat.eqb (skipn p s) (skipn q s).

(** linsuffarr.py:354-403  LCP(SA).  [SA[i - 1]] at i = 0 reads the last element;
    the value is then overwritten by 0 (lines 401-402), so the first entry is
    directly 0 here. *)
Definition lcp_array (s SA : list nat) : list nat :=
  match SA with
  | [] => []
  | _ :: rest => 0 :: map (fun '(p, q) => longest_common_prefix s p q) (combine SA rest)
  end.

(** linsuffarr.py:429-431  sorted(set(string)) and the token identifiers. *)
Fixpoint insert_set (x : str) (l : list str) : list str :=
  match l with
  | [] => [x]
  | y :: l' => if str_eqb x y then l
               else if str_ltb x y then x :: l else y :: insert_set x l'
  end.
(** linsuffarr.py:429 sorted(set(string)). *)
Definition sorted_set (l : list str) : list str := fold_right insert_set [] l.

(** linsuffarr.py:430: the place in the vocabulary. *)
Fixpoint index_of (x : str) (l : list str) : option nat :=
  match l with
  | [] => None
  | y :: l' => if str_eqb x y then Some 0
               else match index_of x l' with Some i => Some (S i) | None => None end
  end.
(** [tokId[c]]: 1 + index in the sorted vocabulary (index 0 is None in Python). linsuffarr.py:430-431. *)
Definition tok_id (voc : list str) (c : str) : res nat :=
  match index_of c voc with Some i => Ok (S i) | None => Raise KeyError end.

(** linsuffarr.py:406-456  SuffixArray.__init__ with unit=UNIT_BYTE on a list of
    token strings. *)
Record suffarr := { sa_voc : list str; sa_string : list nat; sa_SA : list nat; sa_LCP : list nat }.

(** linsuffarr.py:411-454. *)
Definition suffix_array (toks : list str) : res suffarr :=
  let voc := sorted_set toks in
  ids <- mapM (tok_id voc) toks ;;
  let n := length toks in
  SA <- dc3 (S n) (ids ++ repeat 0 3) (repeat 0 (n + 3)) n (S (length voc)) ;;
  let SA := firstn n SA in
  Ok {| sa_voc := voc; sa_string := ids; sa_SA := SA; sa_LCP := lcp_array ids SA |}.

(** linsuffarr.py:776-822  _findOne: binary search; [None] is Python's False. *)
Fixpoint find_one_loop (fuel : nat) (s SA sub : list nat) (lower upper : nat) : res (option nat) :=
  if lower <? upper then
    match fuel with
    | 0 => Raise OutOfFuel
    | S f =>
      let middle := (lower + upper) / 2 in
      p <- aget SA middle ;;
      let msub := slice s p (length sub) in
      if nats_ltb sub msub then find_one_loop f s SA sub lower middle
      else if nats_ltb msub sub then find_one_loop f s SA sub (middle + 1) upper
      else Ok (Some middle)
    end
  else Ok None.

(** linsuffarr.py:776-822. *)
Definition find_one (sa : suffarr) (sub : list str) : res (option nat) :=
  match mapM (tok_id (sa_voc sa)) sub with
  | Raise KeyError => Ok None
  | Raise e => Raise e
  | Ok ids => find_one_loop (length (sa_string sa)) (sa_string sa) (sa_SA sa) ids 0 (length (sa_string sa))
  end.

(** linsuffarr.py:885-886 and 888-889 *)
Fixpoint find_lower (LCP : list nat) (k lower : nat) : res nat :=
  match lower with
  | 0 => Ok 0
  | S l => x <- aget LCP lower ;; if k <=? x then find_lower LCP k l else Ok lower
  end.
(** linsuffarr.py:888-889. *)
Fixpoint find_upper (fuel : nat) (LCP : list nat) (len k upper : nat) : res nat :=
  if upper <? len then
    match fuel with
    | 0 => Raise OutOfFuel
    | S f => x <- aget LCP upper ;;
             if k <=? x then find_upper f LCP len k (upper + 1) else Ok upper
    end
  else Ok upper.

(** linsuffarr.py:824-896  find(subString) without features. *)
Definition find (sa : suffarr) (sub : list str) : res (list nat) :=
  m <- find_one sa sub ;;
  match m with
  | None => Ok []
  | Some middle =>
    ids <- mapM (tok_id (sa_voc sa)) sub ;;
    let k := length ids in
    let len := length (sa_string sa) in
    lower <- find_lower (sa_LCP sa) k middle ;;
    upper <- find_upper len (sa_LCP sa) len k (middle + 1) ;;
    Ok (slice (sa_SA sa) lower (upper - lower))
  end.
