(** Properties C69-C71 of RangeSet, and numbers with underscores (C30). *)
From Verif Require Import Py Lib TokenModel RangeSetModel RangeMoreModel RangeSpec RangeMoreSpec RangeProof RangeMoreProof Props_rangeset Samples.
From Coq Require Import Sorting.Sorted.
Open Scope list_scope.
Open Scope Z_scope.

(** ** C69: padding and autostep only concern the display.
    The results of the operations are displayed like the set they are called on... *)
Theorem C69_handed_on : forall a b x strict start stop step,
  displayed_like (rs_copy a) a /\ displayed_like (rs_intersection a b) a /\ displayed_like (rs_difference a b) a /\ displayed_like (rs_ior a b) a /\
  displayed_like (rs_intersection_update a b) a /\ displayed_like (rs_symmetric_difference_update a b) a /\ displayed_like (rs_discard a x) a /\
  (forall r, rs_difference_update a b strict = Ok r -> displayed_like r a) /\ (forall r, rs_remove a x = Ok r -> displayed_like r a) /\
  (forall r, rs_getslice a start stop step = Ok r -> displayed_like r a).
Proof.
  intros a b x strict start stop step. repeat split; try reflexivity.
  - unfold rs_difference_update in H. destruct (_ && _); [discriminate|]. injection H as <-. reflexivity.
  - unfold rs_difference_update in H. destruct (_ && _); [discriminate|]. injection H as <-. reflexivity.
  - unfold rs_remove in H. destruct (set_mem _ _); [|discriminate]. injection H as <-. reflexivity.
  - unfold rs_remove in H. destruct (set_mem _ _); [|discriminate]. injection H as <-. reflexivity.
  - unfold rs_getslice in H. apply bind_ok in H as [l [_ H]]. injection H as <-. reflexivity.
  - unfold rs_getslice in H. apply bind_ok in H as [l [_ H]]. injection H as <-. reflexivity.
Qed.
Print Assumptions C69_handed_on.
(** ... and a set without padding takes over the first one it meets when elements are added; it never loses it but by clear. *)
Theorem C69_taken_over : forall a b x pad start stop step r,
  rs_pad (rs_update a b) = first_pad (rs_pad a) (rs_pad b) /\ rs_pad (rs_add a x pad) = first_pad (rs_pad a) (if 0 <? pad then Some pad else None) /\
  (add_range a start stop step pad = Ok r -> rs_pad r = first_pad (rs_pad a) (if 0 <? pad then Some pad else None) /\ get_autostep r = get_autostep a) /\
  get_autostep (rs_update a b) = get_autostep a /\ get_autostep (rs_add a x pad) = get_autostep a /\
  rs_elems (rs_clear a) = [] /\ rs_pad (rs_clear a) = None /\ get_autostep (rs_clear a) = get_autostep a.
Proof.
  intros a b x pad start stop step r. split; [cbn; destruct (rs_pad a); reflexivity|]. split; [cbn; destruct (0 <? pad), (rs_pad a); reflexivity|]. split; [|repeat split].
  unfold add_range. repeat match goal with |- context [if negb ?c then _ else _] => destruct c; cbn [negb]; try discriminate end.
  intros H. injection H as <-. cbn. split; [|reflexivity]. destruct (0 <? pad), (rs_pad a); reflexivity.
Qed.
Print Assumptions C69_taken_over.
(** Autostep reads back as it was set, from 1E100 on as None; a RangeSet made from another one takes over the
    padding but not the autostep. *)
Theorem C69_autostep : forall a n autostep, n <= e100 -> get_autostep (set_autostep a (Some n)) = Some n /\ get_autostep (set_autostep a None) = None /\
  get_autostep (rs_empty autostep) = get_autostep (set_autostep a autostep) /\ get_autostep (rs_of_set a autostep) = get_autostep (set_autostep a autostep) /\
  rs_pad (rs_of_set a autostep) = rs_pad a /\ (ascending (rs_elems a) -> rs_elems (rs_of_set a autostep) = rs_elems a).
Proof.
  intros a n autostep H. split; [|repeat split; apply set_update_nil].
  unfold get_autostep, set_autostep, rs_step. destruct (e100 <=? n - 1) eqn:E; [apply Z.leb_le in E; lia|]. f_equal. lia.
Qed.
Print Assumptions C69_autostep.
(** Iterating over the texts gives every element in ascending order, with the padding. *)
Theorem C69_striter : forall cc a, digits_not_space cc -> iss cc 45%N = false ->
  Forall2 (padded_text cc (match rs_pad a with Some p => p | None => 0 end)) (rs_elems a) (rs_striter a).
Proof.
  intros cc a DS NS. unfold rs_striter, rs_padding. induction (rs_elems a) as [|z l IH]; [constructor|]. cbn [map]. constructor; [apply padded; assumption|exact IH].
Qed.
Print Assumptions C69_striter.
(** The padding does not change the elements of the parts contiguous() yields; each of them has it. *)
Theorem C69_contiguous : forall a rs r, rs_contiguous a = Ok rs -> In r rs -> 0 < rs_padding a -> rs_pad r = rs_pad a.
Proof.
  intros a rs r H Hr P. unfold rs_contiguous in H. revert rs H Hr. induction (contiguous_slices a) as [|s l IH]; intros rs H Hr; [injection H as <-; destruct Hr|].
  cbn [mapM] in H. apply bind_ok in H as [r1 [H1 H]]. apply bind_ok in H as [rs1 [H2 H]]. injection H as <-. destruct Hr as [<-|Hr]; [|apply (IH rs1); assumption].
  destruct (sl_stop s =? 0); [discriminate|]. unfold add_range in H1.
  repeat match type of H1 with context [if negb ?c then _ else _] => destruct c; cbn [negb] in H1; try discriminate end.
  injection H1 as <-. cbn. apply Z.ltb_lt in P as Q. rewrite Q. unfold rs_padding in *. destruct (rs_pad a); [reflexivity|lia].
Qed.
Print Assumptions C69_contiguous.
Example C69_example : digits_not_space ascii_cc /\ iss ascii_cc 45%N = false /\
  let a := {| rs_elems := [-5; 7; 12; 1234]; rs_pad := Some 3; rs_step := None |} in
  rs_striter a = [lit "-05"; lit "007"; lit "012"; lit "1234"] /\
  rs_getslice a (Some (-3)) None None = Ok {| rs_elems := [7; 12; 1234]; rs_pad := Some 3; rs_step := None |}.
Proof. split; [apply C30_example|]. split; [reflexivity|]. vm_compute. split; reflexivity. Qed.

(** ** C70: pickling.  A set that is pickled and loaded, or deeply copied, comes back with its padding and its autostep.
    Missing from the full statement: the empty set, negative integers and displayed ranges of 10^9 integers and more. *)
Theorem C70_pickle_partial : forall cc r, digits_not_space cc -> ascending (rs_elems r) -> rs_elems r <> [] -> 0 <= rs_padding r ->
  (forall x, has r x -> 0 <= x <= e100) -> (forall s, In s (slices r) -> sl_stop s - sl_start s < e9) ->
  rs_unpickle cc r = Ok r.
Proof.
  intros cc r D A NE Hp P B. destruct (C30_round_trip_partial cc r None D A NE Hp P B) as [text [r' [E1 [E2 [E3 [E4 _]]]]]].
  unfold rs_unpickle. rewrite E1. cbn [bind]. rewrite E2. cbn [bind]. rewrite E4. destruct r; reflexivity.
Qed.
Print Assumptions C70_pickle_partial.
(** Without these restrictions nothing comes back. *)
Theorem C70_pickle_refuted : rs_unpickle ascii_cc (rs_empty None) = Raise RangeSetParseError /\
  rs_unpickle ascii_cc (rs_of_list [-1; 4] None) = Raise RangeSetParseError /\
  rs_unpickle ascii_cc (rs_of_list [0; 1000000000; 2000000000] (Some 3)) = Raise AssertionError.
Proof. vm_compute. repeat split. Qed.
Print Assumptions C70_pickle_refuted.
Example C70_example : rs_unpickle ascii_cc {| rs_elems := [1; 2; 3; 5; 8; 10; 12; 14]; rs_pad := Some 3; rs_step := Some 3 |} =
  Ok {| rs_elems := [1; 2; 3; 5; 8; 10; 12; 14]; rs_pad := Some 3; rs_step := Some 3 |}.
Proof. vm_compute. reflexivity. Qed.

(** ** C71: the constructors and the slices of a set.  fromlist and updaten give the union; the first padding that
    one of the sets has becomes the padding. *)
Theorem C71_updaten : forall cc l a r, ascending (rs_elems a) -> (forall b, In (ISet b) l -> ascending (rs_elems b)) -> rs_updaten cc a l = Ok r ->
  exists sets, Forall2 (item_set cc) l sets /\ is_set_of r (fun y => has a y \/ exists b, In b sets /\ has b y) /\
    rs_pad r = fold_left first_pad (map rs_pad sets) (rs_pad a) /\ get_autostep r = get_autostep a.
Proof.
  intros cc l. unfold rs_updaten. induction l as [|x l IH]; intros a r A AL H.
  - injection H as <-. exists []. split; [constructor|]. split; [|split; reflexivity]. split; [assumption|]. intros y. split; [left; assumption|]. intros [Q|[b [[] _]]]. assumption.
  - cbn [foldM] in H. apply bind_ok in H as [a1 [H1 H]].
    assert (Q : exists b, item_set cc x b /\ ascending (rs_elems b) /\ a1 = rs_update a b).
    { destruct x as [b|s]; [exists b; injection H1 as <-; split; [reflexivity|]; split; [apply AL; left; reflexivity|reflexivity]|].
      apply bind_ok in H1 as [b [P H1]]. injection H1 as <-. exists b. split; [exact P|]. split; [exact (parse_asc cc s None b P)|reflexivity]. }
    destruct Q as [b [Q1 [Q2 ->]]].
    destruct (set_update_spec (rs_elems b) (rs_elems a) A) as [S1 S2].
    destruct (IH (rs_update a b) r S1) as [sets [F [[G1 G2] [G3 G4]]]]; [intros c Hc; apply AL; right; assumption|exact H|].
    exists (b :: sets). split; [constructor; assumption|]. split; [|split; [|exact G4]]. 2:{ rewrite G3. cbn [map fold_left]. f_equal. cbn. destruct (rs_pad a); reflexivity. }
    split; [assumption|].
    intros y. rewrite G2. unfold has at 1, rs_update. cbn [rs_elems]. rewrite S2. split.
    + intros [[Q|Q]|[c [C1 C2]]]; [left; assumption|right; exists b; split; [left; reflexivity|assumption]|right; exists c; split; [right; assumption|assumption]].
    + intros [Q|[c [[<-|C1] C2]]]; [left; left; assumption|left; right; assumption|right; exists c; auto].
Qed.
Print Assumptions C71_updaten.
(** It fails exactly if one of the texts cannot be read. *)
Theorem C71_updaten_total : forall cc l a, (exists r, rs_updaten cc a l = Ok r) <-> (forall s, In (IText s) l -> exists r, parse cc s None = Ok r).
Proof.
  intros cc l. unfold rs_updaten. induction l as [|x l IH]; intros a; [split; [intros _ s []|intros _; eexists; reflexivity]|].
  cbn [foldM]. split.
  - intros [r H]. apply bind_ok in H as [a1 [H1 H]]. intros s [->|Hs].
    + apply bind_ok in H1 as [b [P _]]. exists b. exact P.
    + apply (proj1 (IH a1)); [exists r; exact H|assumption].
  - intros H. assert (H' : forall s, In (IText s) l -> exists r, parse cc s None = Ok r) by (intros s Hs; apply H; right; assumption).
    destruct x as [b|s].
    + cbn [bind]. apply IH. assumption.
    + destruct (H s (or_introl eq_refl)) as [b P]. rewrite P. cbn [bind]. apply IH. assumption.
Qed.
Print Assumptions C71_updaten_total.
Theorem C71_fromlist : forall cc l autostep r, (forall b, In (ISet b) l -> ascending (rs_elems b)) -> rs_fromlist cc l autostep = Ok r ->
  exists sets, Forall2 (item_set cc) l sets /\ is_set_of r (fun y => exists b, In b sets /\ has b y) /\ rs_pad r = fold_left first_pad (map rs_pad sets) None.
Proof.
  intros cc l autostep r AL H. destruct (C71_updaten cc l (rs_empty autostep) r (SSorted_nil _) AL H) as [sets [F [[G1 G2] [G3 _]]]].
  exists sets. split; [assumption|]. split; [|exact G3]. split; [assumption|]. intros y. rewrite G2. split; [intros [[]|Q]; assumption|right; assumption].
Qed.
Print Assumptions C71_fromlist.
(** fromone gives the one element, or the elements of a slice with a positive step; a start or a step left out, or zero,
    counts as 0 or 1. *)
Theorem C71_fromone : forall x pad autostep, is_set_of (rs_fromone x pad autostep) (fun y => y = x) /\
  rs_pad (rs_fromone x pad autostep) = (if 0 <? pad then Some pad else None) /\ get_autostep (rs_fromone x pad autostep) = get_autostep (rs_empty autostep) /\
  (forall start stop step r, rs_fromslice start stop step pad autostep = Ok r ->
   exists e s0 s, stop = Some e /\ (start = Some s0 \/ start = None /\ s0 = 0) /\ 0 < s /\ (step = Some s \/ (step = None \/ step = Some 0) /\ s = 1) /\
     is_set_of r (fun y => exists k, 0 <= k /\ y = s0 + k * s /\ y < e)) /\
  (forall start stop, rs_fromslice start stop (Some 0) pad autostep = rs_fromslice start stop (Some 1) pad autostep /\
                      rs_fromslice start stop None pad autostep = rs_fromslice start stop (Some 1) pad autostep) /\
  (forall s0 e s, e <> 0 -> s0 < e -> 0 < s -> 0 <= pad -> e - s0 < e9 -> exists r, rs_fromslice (Some s0) (Some e) (Some s) pad autostep = Ok r).
Proof.
  intros x pad autostep. split; [|split; [cbn; destruct (0 <? pad); reflexivity|split; [reflexivity|split; [|split]]]].
  - destruct (set_add_spec x [] (SSorted_nil _)) as [S1 S2]. split; [exact S1|]. intros y. cbn [rs_fromone rs_add rs_elems rs_empty set_autostep]. rewrite S2. cbn. intuition.
  - intros start stop step r H. unfold rs_fromslice in H. destruct stop as [e|]; [|discriminate]. exists e, (or_else start 0), (or_else step 1). split; [reflexivity|]. destruct (e =? 0); [discriminate|].
    unfold add_range in H. destruct (or_else start 0 <? e); cbn [negb] in H; [|discriminate]. destruct (0 <? or_else step 1) eqn:E; cbn [negb] in H; [|discriminate].
    destruct (0 <=? pad); cbn [negb] in H; [|discriminate]. destruct (e - or_else start 0 <? e9); cbn [negb] in H; [|discriminate]. injection H as <-. apply Z.ltb_lt in E.
    split; [destruct start as [z|]; cbn [or_else]; [left; destruct (Z.eqb_spec z 0); congruence|right; split; reflexivity]|].
    split; [exact E|]. split; [destruct step as [z|]; cbn [or_else]; [destruct (Z.eqb_spec z 0) as [->|]; [right; auto|left; reflexivity]|right; auto]|].
    destruct (set_update_spec (py_range (or_else start 0) e (or_else step 1)) [] (SSorted_nil _)) as [S1 S2]. split; [exact S1|].
    intros y. cbn [rs_elems rs_empty set_autostep]. rewrite S2. rewrite py_range_In by assumption. cbn [In].
    split; [intros [[]|[j [J1 [J2 J3]]]]; exists j; split; [assumption|]; split; [lia|assumption]|intros [j [J1 [J2 J3]]]; right; exists j; split; [assumption|]; split; [lia|assumption]].
  - intros start stop. split; reflexivity.
  - intros s0 e s He Hs Hp Hpad Hb. unfold rs_fromslice. apply Z.eqb_neq in He. rewrite He. unfold add_range.
    assert (O1 : or_else (Some s0) 0 = s0) by (cbn; destruct (Z.eqb_spec s0 0); congruence). assert (O2 : or_else (Some s) 1 = s) by (cbn; destruct (Z.eqb_spec s 0); lia).
    rewrite O1, O2. apply Z.ltb_lt in Hs, Hp, Hb. apply Z.leb_le in Hpad. rewrite Hs, Hp, Hpad, Hb. cbn [negb]. eexists. reflexivity.
Qed.
Print Assumptions C71_fromone.
(** A slice of a set holds the elements at the chosen positions; the step may be negative, and only the step 0 is an error. *)
Theorem C71_slices : forall a start stop step, ascending (rs_elems a) ->
  match rs_getslice a start stop step with
  | Ok r => is_set_of r (fun y => exists k, nth_error (rs_elems a) k = Some y /\ chosen (Z.of_nat (length (rs_elems a))) start stop (opt_or step 1) (Z.of_nat k))
  | Raise e => e = ValueError /\ step = Some 0
  end.
Proof.
  intros a start stop step A. unfold rs_getslice. destruct (Z.eq_dec (opt_or step 1) 0) as [E|E].
  - unfold py_slice. rewrite E. cbn. split; [reflexivity|]. destruct step as [s|]; cbn in E; [congruence|discriminate].
  - destruct (slice_spec (rs_elems a) start stop step E) as [l [P Q]]. rewrite P. cbn [bind].
    destruct (set_update_spec l [] (SSorted_nil _)) as [S1 S2]. split; [exact S1|]. intros y. cbn [rs_elems]. rewrite S2, Q. cbn [In]. intuition.
Qed.
Print Assumptions C71_slices.
(** In particular [a[i:j]] for 0 <= i <= j holds the i-th to the (j-1)-th element. *)
Corollary C71_slice_plain : forall a i j r, ascending (rs_elems a) -> 0 <= i -> 0 <= j -> rs_getslice a (Some i) (Some j) None = Ok r ->
  forall y, has r y <-> exists k, nth_error (rs_elems a) k = Some y /\ i <= Z.of_nat k < j.
Proof.
  intros a i j r A Hi Hj H. pose proof (C71_slices a (Some i) (Some j) None A) as Q. rewrite H in Q. destruct Q as [_ Q]. intros y. unfold has. rewrite Q.
  unfold chosen, meant. cbn [opt_or]. replace (i <? 0) with false by (symmetry; apply Z.ltb_ge; lia). replace (j <? 0) with false by (symmetry; apply Z.ltb_ge; lia). cbn [Z.ltb Z.compare].
  split.
  - intros [k [K1 [K2 [[m [M1 M2]] K3]]]]. exists k. split; [assumption|]. lia.
  - intros [k [K1 K2]]. exists k. split; [assumption|]. assert (k < length (rs_elems a))%nat by (apply nth_error_Some; congruence).
    split; [lia|]. split; [exists (Z.of_nat k - i); lia|lia].
Qed.
Print Assumptions C71_slice_plain.
Example C71_example : let a := rs_of_list [3; 1; 2; 5; 9] None in ascending (rs_elems a) /\
  rs_fromlist ascii_cc [IText (lit "1-3"); IText (lit "007,9"); ISet a] (Some 3) = Ok {| rs_elems := [1; 2; 3; 5; 7; 9]; rs_pad := Some 3; rs_step := Some 2 |} /\
  rs_getslice a None None (Some (-2)) = Ok {| rs_elems := [1; 3; 9]; rs_pad := None; rs_step := None |} /\
  rs_fromslice None (Some 7) (Some 3) 0 None = Ok (rs_of_list [0; 3; 6] None) /\ rs_fromslice None None None 0 None = Raise ValueError.
Proof. cbn zeta. split; [vm_compute; repeat constructor|]. vm_compute. repeat split. Qed.

(** ** C30: numbers may be written with underscores between digits. *)
Theorem C30_underscores : forall cc groups, digits_not_space cc -> iss cc 95%N = false -> groups <> [] ->
  Forall (fun g => g <> [] /\ Forall (fun c => 48 <= c <= 57)%N g) groups -> py_int cc (str_join (lit "_") groups) = py_int cc (concat groups).
Proof.
  intros cc groups DS NS NE F. destruct groups as [|g gs]; [congruence|]. inversion F as [|? ? [G1 G2] FG]; subst.
  change (lit "_") with [95%N]. rewrite join_groups. cbn [concat].
  assert (NSP : forall s, Forall (fun c => is_digit c \/ c = 95%N) s -> strip cc s = s).
  { intros s Fs. assert (FS : Forall (fun c => iss cc c = false) s).
    { apply Forall_forall. intros c Hc. rewrite Forall_forall in Fs. destruct (Fs c Hc) as [Q|Q]; [apply DS; exact Q|rewrite Q; assumption]. }
    unfold strip, rstrip. rewrite (span_none (iss cc) (rev s)) by (apply Forall_forall; intros c Hc; rewrite Forall_forall in FS; apply FS; apply in_rev; assumption).
    cbn [snd]. rewrite rev_involutive, span_none by assumption. reflexivity. }
  unfold py_int.
  rewrite NSP.
  2:{ apply Forall_app. split; [eapply Forall_impl; [|exact G2]; intros c Hc; left; exact Hc|]. clear - FG. induction FG as [|h gs HH FG IH]; [constructor|]. destruct HH as [_ H]. cbn [flat_map]. constructor; [right; reflexivity|].
      apply Forall_app. split; [eapply Forall_impl; [|exact H]; intros c Hc; left; exact Hc|exact IH]. }
  rewrite NSP.
  2:{ apply Forall_app. split; [eapply Forall_impl; [|exact G2]; intros c Hc; left; exact Hc|]. clear - FG. induction FG as [|h gs HH FG IH]; [constructor|]. destruct HH as [_ H]. cbn [concat].
      apply Forall_app. split; [eapply Forall_impl; [|exact H]; intros c Hc; left; exact Hc|exact IH]. }
  pose proof (read_groups gs g G1 G2 FG) as R. destruct g as [|c g]; [congruence|]. cbn [app] in *. inversion G2; subst.
  replace (N.eqb c 45) with false by (symmetry; apply N.eqb_neq; lia). replace (N.eqb c 43) with false by (symmetry; apply N.eqb_neq; lia).
  rewrite R. reflexivity.
Qed.
Print Assumptions C30_underscores.
Example C30_underscores_example : py_int ascii_cc (lit "1_000_000") = Some 1000000 /\ py_int ascii_cc (lit "1__0") = None /\
  str_join (lit "_") [lit "1"; lit "000"; lit "000"] = lit "1_000_000".
Proof. vm_compute. repeat split. Qed.
