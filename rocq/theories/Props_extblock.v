(** Property C93: blocks and occurrences as sets of positions. *)
From Verif Require Import Py Lib TokenModel SuffixModel SuffixSpec RangeSetModel RangeSpec RangeProof OutputProof DrawProof Samples ExtBlockModel Props_suffix Props_rangeset.
From Coq Require Import Sorting.Sorted Permutation.
Open Scope list_scope.
Open Scope Z_scope.

(** Blocks are equal if they have the same positions; with the same padding and autostep their hash
    values, texts and representations are then the same as well. *)
Theorem C93_equal : forall a b, ascending (rs_elems a) -> ascending (rs_elems b) ->
  (xblock_eq a b = true <-> forall p, has a p <-> has b p) /\
  (xblock_eq a b = true -> rs_pad a = rs_pad b -> rs_step a = rs_step b ->
   (forall hash, xblock_hash hash a = xblock_hash hash b) /\ xblock_str a = xblock_str b /\ xblock_repr a = xblock_repr b).
Proof.
  intros a b A B. split; [apply eq_spec; assumption|]. intros E P Q. pose proof (proj1 (eq_spec a b A B) E) as E0. clear E.
  assert (EE : rs_elems a = rs_elems b) by (apply asc_ext; assumption). assert (a = b) as -> by (destruct a, b; cbn in *; congruence). repeat split.
Qed.
Print Assumptions C93_equal.

(** Blocks with the same text are equal. *)
Theorem C93_same_text : forall cc a b s, digits_not_space cc -> ascending (rs_elems a) -> ascending (rs_elems b) -> rs_elems a <> [] -> rs_elems b <> [] ->
  0 <= rs_padding a -> 0 <= rs_padding b -> (forall x, has a x -> 0 <= x <= e100) -> (forall x, has b x -> 0 <= x <= e100) ->
  (forall x y, has a x -> has a y -> y - x < e9 - 1) -> (forall x y, has b x -> has b y -> y - x < e9 - 1) ->
  xblock_str a = Ok s -> xblock_str b = Ok s -> xblock_eq a b = true.
Proof.
  intros cc a b s D A B NA NB PA PB RA RB SA SB HA HB.
  destruct (C30_round_trip_span_partial cc a None D A NA PA RA SA) as [ta [ra [E1 [E2 [_ E4]]]]].
  destruct (C30_round_trip_span_partial cc b None D B NB PB RB SB) as [tb [rb [F1 [F2 [_ F4]]]]].
  unfold xblock_str in HA, HB. rewrite E1 in HA. rewrite F1 in HB. cbn [bind] in HA, HB. apply ok_inj in HA, HB. assert (ta = tb) by (rewrite <- HB in HA; apply app_inv_head in HA; exact HA). subst tb.
  rewrite E2 in F2. apply ok_inj in F2. subst rb. apply (proj2 (eq_spec a b A B)). unfold has. intros x. rewrite <- E4, <- F4. reflexivity.
Qed.
Print Assumptions C93_same_text.

(** What a block is written as: an opening that differs for str() and repr(), and a text from which
    the positions can be read back; the hash value is that of this text. *)
Theorem C93_texts : forall cc a, digits_not_space cc -> ascending (rs_elems a) -> rs_elems a <> [] ->
  0 <= rs_padding a -> (forall x, has a x -> 0 <= x <= e100) -> (forall x y, has a x -> has a y -> y - x < e9 - 1) ->
  exists t r, parse cc t None = Ok r /\ (forall p, has r p <-> has a p) /\
    xblock_str a = Ok (lit "Block with occurrences " ++ t) /\ xblock_repr a = Ok (lit "Block: " ++ t) /\
    forall hash, xblock_hash hash a = Ok (hash t).
Proof.
  intros cc a D A NA PA RA SA. destruct (C30_round_trip_span_partial cc a None D A NA PA RA SA) as [t [r [E1 [E2 [_ E4]]]]].
  exists t, r. split; [exact E2|]. split; [intros p; unfold has; rewrite E4; reflexivity|].
  unfold xblock_str, xblock_repr, xblock_hash. rewrite E1. repeat split.
Qed.
Print Assumptions C93_texts.

(** Equal blocks need not have equal hash values: the padding is not compared. *)
Theorem C93_hash_refuted : exists a b, parse ascii_cc (lit "1-3") None = Ok a /\ parse ascii_cc (lit "01-03") None = Ok b /\ xblock_eq a b = true /\
  forall hash, hash (lit "1-3") <> hash (lit "01-03") -> xblock_hash hash a <> xblock_hash hash b.
Proof.
  eexists. eexists. split; [vm_compute; reflexivity|]. split; [vm_compute; reflexivity|]. split; [reflexivity|].
  intros hash N E. apply N. unfold xblock_hash in E.
  match type of E with (bind ?x _) = (bind ?y _) => change x with (Ok (lit "1-3")) in E; change y with (Ok (lit "01-03")) in E end. cbn [bind] in E. apply ok_inj in E. exact E.
Qed.
Print Assumptions C93_hash_refuted.

(** The lower end of an occurrence is its first position. *)
Theorem C93_lower_end : forall r, ascending (rs_elems r) ->
  (rs_elems r = [] -> occurrence_lower r = Raise IndexError) /\
  (forall x, occurrence_lower r = Ok x <-> has r x /\ forall y, has r y -> x <= y) /\
  (forall p, occurrence_in r p = true <-> has r p).
Proof.
  intros r A. unfold occurrence_lower. split; [|split].
  - intros E. unfold rs_getitem. rewrite E. reflexivity.
  - intros x. unfold has, rs_getitem. change (0 <? 0) with false. cbv iota zeta. destruct (rs_elems r) as [|y l]; [split; [discriminate|intros [[] _]]|].
    change (0 <? 0) with false. cbn [length]. replace (Z.of_nat (S (length l)) <=? 0) with false by (symmetry; apply Z.leb_gt; lia). cbn [orb Z.to_nat nth_error].
    inversion A as [|? ? A1 A2]; subst. rewrite Forall_forall in A2. split.
    + intros E. apply ok_inj in E. subst x. split; [left; reflexivity|]. intros z [->|Hz]; [lia|]. specialize (A2 z Hz). lia.
    + intros [[->|H] M]; [reflexivity|]. specialize (A2 x H). specialize (M y (or_introl eq_refl)). lia.
  - intros p. apply set_mem_In.
Qed.
Print Assumptions C93_lower_end.

(** debug: the words of each occurrence, joined by blanks.  Of an occurrence in several pieces only
    the words of the first piece are shown. *)
Definition words_of_range (words : list str) (l : list Z) (ws : list str) : Prop := Forall2 (fun x w => 0 <= x /\ nth_error words (Z.to_nat x) = Some w) l ws.
Inductive debug_line (words : list str) (r : rangeset) : str -> Prop :=
| shows_run : forall run rest ws, rs_elems r = run ++ rest -> consecutive run -> (rest = [] \/ gap run rest) -> words_of_range words run ws ->
    debug_line words r (str_join (lit " ") ws).
Lemma words_found : forall words l, (forall x, In x l -> 0 <= x < Z.of_nat (length words)) ->
  words_of_range words l (flat_map (fun x => match nth_error words (Z.to_nat x) with Some w => [w] | None => [] end) l).
Proof.
  intros words l H. induction l as [|x l IH]; [constructor|]. cbn [flat_map]. pose proof (H x (or_introl eq_refl)) as B.
  destruct (nth_error words (Z.to_nat x)) as [w|] eqn:E; [|apply nth_error_None in E; lia]. cbn [app]. constructor; [split; [lia|exact E]|]. apply IH. intros y Hy. apply H. right. exact Hy.
Qed.
Lemma one_debug : forall words r, ascending (rs_elems r) -> rs_elems r <> [] -> rs_step r = rs_step (rs_empty None) -> (forall x, has r x -> 0 <= x < Z.of_nat (length words)) ->
  exists s ss, slices r = s :: ss /\ debug_line words r (str_join (lit " ") (words_at words s)).
Proof.
  intros words r A NE ST B. assert (SL : slices r = contiguous_slices r) by (unfold slices; rewrite ST; reflexivity). rewrite SL.
  destruct (contiguous_spec r A) as [F [R1 R2]]. destruct (contiguous_slices r) as [|s ss]; [cbn in F; congruence|]. exists s, ss. split; [reflexivity|].
  cbn [flat_map] in F. inversion R1 as [|? ? [Q1 Q2] R1']; subst. inversion R2 as [|? ? R2' R3]; subst. rewrite Forall_forall in R1', R3.
  assert (EX : expand s = zseq (sl_start s) (sl_stop s)) by (unfold expand; rewrite Q2; apply zseq_range).
  apply (shows_run words r (expand s) (flat_map expand ss)); [symmetry; exact F| | |].
  - rewrite EX. split; [intros E; assert (I : In (sl_start s) (zseq (sl_start s) (sl_stop s))) by (apply zseq_In; lia); rewrite E in I; destruct I|].
    intros x y z Hx Hz. rewrite !zseq_In in *. lia.
  - right. intros x y Hx Hy. rewrite EX, zseq_In in Hx. apply in_flat_map in Hy as [s' [Hs Hy]]. destruct (R1' s' Hs) as [P1 P2]. specialize (R3 s' Hs). unfold apart in R3.
    unfold expand in Hy. rewrite P2, zseq_range, zseq_In in Hy. lia.
  - unfold words_at. fold (expand s). apply words_found. intros x Hx. apply B. unfold has. rewrite <- F, in_app_iff. left. exact Hx.
Qed.
Theorem C93_debug : forall words occs, Forall (fun r => ascending (rs_elems r) /\ rs_elems r <> [] /\ rs_step r = rs_step (rs_empty None) /\ forall x, has r x -> 0 <= x < Z.of_nat (length words)) occs ->
  exists lines, witness_debug words occs = Some lines /\ Forall2 (debug_line words) occs lines.
Proof.
  intros words occs F. induction F as [|r occs [A [NE [ST B]]] _ [lines [E H]]]; [exists []; split; [reflexivity|constructor]|].
  destruct (one_debug words r A NE ST B) as [s [ss [E1 D]]]. eexists. cbn [witness_debug]. rewrite E1, E. split; [reflexivity|]. constructor; assumption.
Qed.
Print Assumptions C93_debug.

(** list_prefixes for a suffix array: every line after the first is the longest common beginning of
    two neighbouring suffixes, or a line of hyphens if they have none. *)
Theorem C93_prefixes : forall toks sa, suffix_array toks = Ok sa -> length toks <> 1%nat ->
  exists lines, prefix_lines toks (sa_SA sa) (sa_LCP sa) = Ok lines /\ length lines = length toks /\
    (forall l, nth_error lines 0 = Some l -> l = lit "--------") /\
    forall i p q, nth_error (sa_SA sa) i = Some p -> nth_error (sa_SA sa) (S i) = Some q ->
      exists k, is_lcp (skipn p toks) (skipn q toks) k /\
        nth_error lines (S i) = Some (match k with O => lit "--------" | _ => str_join (lit " ") (firstn k (skipn p toks)) end).
Proof.
  intros toks sa H L1. assert (L : length (sa_SA sa) = length toks) by (destruct (C12_suffix_array_partial toks sa L1 H) as [P _]; rewrite (Permutation_length P); apply seq_length).
  destruct (C13_lcp_array toks sa H) as [LL [L0 LS]].
  assert (M : forall l, (forall i, In i l -> (i < length toks)%nat) -> exists lines, mapM (fun i => k <- aget (sa_LCP sa) i ;;
                 if Nat.ltb 0 k then p <- aget (sa_SA sa) i ;; Ok (str_join (lit " ") (firstn k (skipn p toks))) else Ok (lit "--------")) l = Ok lines /\
    Forall2 (fun i s => exists k p, nth_error (sa_LCP sa) i = Some k /\ nth_error (sa_SA sa) i = Some p /\ s = match k with O => lit "--------" | _ => str_join (lit " ") (firstn k (skipn p toks)) end) l lines).
  { induction l as [|i l IH]; intros B; [exists []; split; [reflexivity|constructor]|]. destruct (IH (fun j Hj => B j (or_intror Hj))) as [lines [E F]].
    pose proof (B i (or_introl eq_refl)) as Bi. destruct (nth_error (sa_LCP sa) i) as [k|] eqn:EK; [|apply nth_error_None in EK; lia].
    destruct (nth_error (sa_SA sa) i) as [p|] eqn:EP; [|apply nth_error_None in EP; lia]. cbn [mapM]. unfold aget at 1 2. rewrite EK, EP. cbn [bind]. rewrite E.
    destruct k as [|k]; cbn [Nat.ltb Nat.leb bind]; eexists; (split; [reflexivity|]); (constructor; [|exact F]); eexists; eexists; (split; [exact EK|split; [exact EP|reflexivity]]). }
  destruct (M (seq 0 (length (sa_LCP sa)))) as [lines [E F]]; [intros i Hi; apply in_seq in Hi; lia|]. exists lines. split; [exact E|].
  assert (LN : length lines = length toks) by (rewrite <- LL, <- (seq_length (length (sa_LCP sa)) 0%nat); symmetry; clear - F; induction F; [reflexivity|cbn [length]; congruence]).
  assert (NT : forall i s, nth_error lines i = Some s -> exists k p, nth_error (sa_LCP sa) i = Some k /\ nth_error (sa_SA sa) i = Some p /\ s = match k with O => lit "--------" | _ => str_join (lit " ") (firstn k (skipn p toks)) end).
  { intros i s Hs. assert (Bi : (i < length (sa_LCP sa))%nat) by (rewrite LL, <- LN; apply nth_error_Some; congruence).
    assert (G : forall l ls, Forall2 (fun i s => exists k p, nth_error (sa_LCP sa) i = Some k /\ nth_error (sa_SA sa) i = Some p /\ s = match k with O => lit "--------" | _ => str_join (lit " ") (firstn k (skipn p toks)) end) l ls ->
      forall j x y, nth_error l j = Some x -> nth_error ls j = Some y -> exists k p, nth_error (sa_LCP sa) x = Some k /\ nth_error (sa_SA sa) x = Some p /\ y = match k with O => lit "--------" | _ => str_join (lit " ") (firstn k (skipn p toks)) end).
    { clear. intros l ls F. induction F as [|a b l ls P F IH]; intros [|j] x y Hx Hy; cbn in Hx, Hy; try discriminate; [injection Hx as <-; injection Hy as <-; exact P|eapply IH; eassumption]. }
    apply (G _ _ F i i s); [|exact Hs]. rewrite (nth_error_nth' _ 0%nat) by (rewrite seq_length; exact Bi). rewrite seq_nth by exact Bi. reflexivity. }
  split; [exact LN|]. split.
  - intros s Hs. destruct (NT 0%nat s Hs) as [k [p [K [_ ->]]]]. rewrite (L0 k K). reflexivity.
  - intros i p q Hp Hq. destruct (LS i p q Hp Hq) as [k [K IL]]. exists k. split; [exact IL|].
    assert (BS : (S i < length lines)%nat) by (rewrite LN, <- L; apply nth_error_Some; congruence).
    destruct (nth_error lines (S i)) as [s|] eqn:ES; [|apply nth_error_None in ES; lia]. destruct (NT (S i) s ES) as [k' [q' [K' [Q' ->]]]].
    rewrite K in K'. injection K' as <-. rewrite Hq in Q'. injection Q' as <-. destruct k as [|k]; [reflexivity|]. destruct IL as [I1 _]. rewrite <- I1. reflexivity.
Qed.
Print Assumptions C93_prefixes.

Example C93_equal_example : exists a b, parse ascii_cc (lit "1-3,7") None = Ok a /\ parse ascii_cc (lit "7,1-3") None = Ok b /\ ascending (rs_elems a) /\ xblock_eq a b = true /\ xblock_str a = Ok (lit "Block with occurrences 1-3,7").
Proof. eexists. eexists. split; [vm_compute; reflexivity|]. split; [vm_compute; reflexivity|]. split; [repeat constructor; lia|]. split; reflexivity. Qed.
Example C93_debug_example : exists a, parse ascii_cc (lit "1-2") None = Ok a /\ witness_debug [lit "a"; lit "b"; lit "c"] [a] = Some [lit "b c"].
Proof. eexists. split; vm_compute; reflexivity. Qed.
Example C93_prefixes_example : exists sa, suffix_array [lit "a"; lit "b"; lit "a"; lit "b"] = Ok sa /\ length [lit "a"; lit "b"; lit "a"; lit "b"] <> 1%nat /\
  prefix_lines [lit "a"; lit "b"; lit "a"; lit "b"] (sa_SA sa) (sa_LCP sa) = Ok [lit "--------"; lit "a b"; lit "--------"; lit "b"].
Proof. eexists. split; [vm_compute; reflexivity|]. split; [discriminate|reflexivity]. Qed.
