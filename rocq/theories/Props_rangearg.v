(** Property C96 of RangeSet: elements given as texts, arguments of the wrong kind. *)
From Verif Require Import Py Lib TokenModel RangeSetModel RangeMoreModel RangeArgModel RangeSpec RangeMoreSpec RangeArgSpec RangeProof RangeMoreProof Props_rangeset Props_rangemore Samples.
From Coq Require Import Sorting.Sorted.
Open Scope list_scope.
Open Scope Z_scope.

Lemma arg_int_stands : forall cc x z, arg_int cc x = Ok z <-> stands_for cc x z.
Proof.
  intros cc x z. unfold stands_for. split.
  - destruct x; cbn; intros H; try discriminate.
    + injection H as ->. left. reflexivity.
    + destruct (py_int cc s) eqn:E; [|discriminate]. injection H as ->. right. exists s. auto.
  - intros [->|[s [-> E]]]; cbn; [reflexivity|rewrite E; reflexivity].
Qed.
Lemma arg_cases : forall cc x, (exists z, stands_for cc x z) \/ no_number cc x \/ no_element x.
Proof.
  intros cc [z|s|r|].
  - left. exists z. left. reflexivity.
  - destruct (py_int cc s) as [z|] eqn:E; [left; exists z; right; exists s; auto|right; left; exists s; auto].
  - right. right. right. exists r. reflexivity.
  - right. right. left. reflexivity.
Qed.

(** ** C96: an element can be given as a text.
    Whatever spells the same integer is the same element, for add, remove, discard and [in]. *)
Theorem C96_same_element : forall cc a x y z pad, stands_for cc x z -> stands_for cc y z ->
  rs_add_arg cc a x pad = rs_add_arg cc a y pad /\ rs_remove_arg cc a x = rs_remove_arg cc a y /\
  rs_discard_arg cc a x = rs_discard_arg cc a y /\ rs_contains_arg cc a x = rs_contains_arg cc a y.
Proof.
  intros cc a x y z pad X Y. apply arg_int_stands in X as X1. apply arg_int_stands in Y as Y1. unfold rs_add_arg, rs_remove_arg, rs_discard_arg.
  rewrite X1, Y1. repeat split. unfold rs_contains_arg. destruct X as [->|[s [-> _]]], Y as [->|[t [-> _]]]; rewrite ?X1, ?Y1; reflexivity.
Qed.
Print Assumptions C96_same_element.

(** What add, remove, discard and [in] do with an argument that stands for an integer. *)
Theorem C96_elements : forall cc a x z pad, ascending (rs_elems a) -> stands_for cc x z ->
  (exists r, rs_add_arg cc a x pad = Ok r /\ is_set_of r (fun y => y = z \/ has a y) /\
     rs_pad r = first_pad (rs_pad a) (if 0 <? pad then Some pad else None) /\ get_autostep r = get_autostep a) /\
  (has a z -> exists r, rs_remove_arg cc a x = Ok r /\ is_set_of r (fun y => has a y /\ y <> z)) /\
  (~ has a z -> rs_remove_arg cc a x = Raise KeyError) /\
  (exists r, rs_discard_arg cc a x = Ok r /\ is_set_of r (fun y => has a y /\ y <> z)) /\
  exists b, rs_contains_arg cc a x = Ok b /\ (b = true <-> has a z).
Proof.
  intros cc a x z pad A X. apply arg_int_stands in X as X1.
  assert (D : is_set_of (rs_discard a z) (fun y => has a y /\ y <> z)).
  { split; [apply filter_spec; assumption|]. intros y. cbn [rs_discard rs_elems]. rewrite filter_In, negb_true_iff, Z.eqb_neq. reflexivity. }
  unfold rs_add_arg, rs_remove_arg, rs_discard_arg. rewrite X1. cbn [bind].
  split; [|split; [|split; [|split]]].
  - eexists. split; [reflexivity|]. split; [split; apply set_add_spec; assumption|].
    destruct (C69_taken_over a a z pad 0 0 0 a) as [_ [P [_ [_ [Q _]]]]]. split; [exact P|exact Q].
  - intros H. unfold rs_remove. apply set_mem_In in H. rewrite H. eexists. split; [reflexivity|exact D].
  - intros H. unfold rs_remove. destruct (set_mem z (rs_elems a)) eqn:E; [|reflexivity]. apply set_mem_In in E. contradiction.
  - eexists. split; [reflexivity|exact D].
  - exists (rs_contains a z). split; [|apply set_mem_In]. unfold rs_contains_arg. destruct X as [->|[s [-> _]]]; rewrite X1; reflexivity.
Qed.
Print Assumptions C96_elements.

(** A set is in another set if all its elements are. *)
Theorem C96_set_in_set : forall cc a b, ascending (rs_elems a) -> ascending (rs_elems b) ->
  exists t, rs_contains_arg cc a (ASet b) = Ok t /\ (t = true <-> forall y, has b y -> has a y).
Proof. intros cc a b A B. eexists. split; [reflexivity|]. apply (C48_comparisons a b 0 A B). Qed.
Print Assumptions C96_set_in_set.

(** An argument that stands for no integer: a text that is no number raises ValueError but is passed over by discard; anything else
    raises TypeError, in discard too. *)
Theorem C96_errors : forall cc a x pad,
  (no_number cc x -> rs_add_arg cc a x pad = Raise ValueError /\ rs_remove_arg cc a x = Raise ValueError /\
     rs_contains_arg cc a x = Raise ValueError /\ rs_discard_arg cc a x = Ok a) /\
  (no_element x -> rs_add_arg cc a x pad = Raise TypeError /\ rs_remove_arg cc a x = Raise TypeError /\ rs_discard_arg cc a x = Raise TypeError) /\
  (x = AnOther -> rs_contains_arg cc a x = Raise TypeError).
Proof.
  intros cc a x pad. split; [|split].
  - intros [s [-> E]]. unfold rs_add_arg, rs_remove_arg, rs_contains_arg, rs_discard_arg. cbn [arg_int]. rewrite E. repeat split.
  - intros [->|[r ->]]; repeat split.
  - intros ->. reflexivity.
Qed.
Print Assumptions C96_errors.
(** The comment in discard, "ignore other object types", does not hold. *)
Theorem C96_discard_refuted : exists x, forall cc a, rs_discard_arg cc a x = Raise TypeError.
Proof. exists AnOther. reflexivity. Qed.
Print Assumptions C96_discard_refuted.

(** The texts of striter(), with padding and sign, are the elements again: each is in the set, and taking all of them out
    empties it. *)
Theorem C96_striter : forall cc a s, digits_not_space cc -> iss cc 45%N = false -> In s (rs_striter a) -> rs_contains_arg cc a (AText s) = Ok true.
Proof.
  intros cc a s DS NS H. unfold rs_striter in H. apply in_map_iff in H as [z [<- H]]. unfold rs_contains_arg, arg_int.
  rewrite (proj1 (padded cc DS (rs_padding a) z NS)). cbn [bind]. apply set_mem_In in H. unfold rs_contains. rewrite H. reflexivity.
Qed.
Print Assumptions C96_striter.
Theorem C96_striter_empties : forall cc a, digits_not_space cc -> iss cc 45%N = false -> ascending (rs_elems a) ->
  exists r, foldM (rs_remove_arg cc) (map AText (rs_striter a)) a = Ok r /\ rs_elems r = [] /\ rs_pad r = rs_pad a.
Proof.
  intros cc a DS NS A. unfold rs_striter.
  assert (G : forall p l r, ascending l -> rs_elems r = l -> exists r', foldM (rs_remove_arg cc) (map AText (map (fmt p) l)) r = Ok r' /\ rs_elems r' = [] /\ rs_pad r' = rs_pad r).
  { intros p l. induction l as [|z l IH]; intros r H E; [exists r; auto|]. cbn [map foldM]. unfold rs_remove_arg at 1. cbn [arg_int].
    rewrite (proj1 (padded cc DS p z NS)). cbn [bind]. unfold rs_remove. rewrite E. cbn [set_mem existsb]. rewrite Z.eqb_refl. cbn [orb bind].
    apply StronglySorted_inv in H as [H1 H2]. destruct (IH (rs_discard r z)) as [r' [R1 [R2 R3]]]; [assumption| |].
    - cbn [rs_discard rs_elems]. rewrite E. cbn [filter]. rewrite Z.eqb_refl. cbn [negb]. rewrite Forall_forall in H2.
      clear - H2. induction l as [|w l IH]; [reflexivity|]. cbn [filter]. replace (w =? z) with false by (symmetry; apply Z.eqb_neq; pose proof (H2 w (or_introl eq_refl)); lia).
      cbn [negb]. rewrite IH; [reflexivity|]. intros v V. apply H2. right. exact V.
    - exists r'. auto. }
  apply G; [exact A|reflexivity].
Qed.
Print Assumptions C96_striter_empties.

(** The operators and comparisons take sets only; [==] answers False. *)
Theorem C96_operators : forall a x op c, no_set x ->
  rs_operate op a x = Raise TypeError /\ rs_operate_in_place op a x = Raise TypeError /\ rs_compare c a x = Raise TypeError /\ rs_equals a x = false.
Proof. intros a [z|s|r|] op c N; [| |destruct (N r eq_refl)|]; repeat split. Qed.
Print Assumptions C96_operators.
(** With a set: the comparisons are inclusion and strict inclusion, the operators in place change the set itself. *)
Theorem C96_comparisons : forall a b c, ascending (rs_elems a) -> ascending (rs_elems b) ->
  exists t, rs_compare c a (ASet b) = Ok t /\
  (t = true <-> match c with
                | CmpLe => forall y, has a y -> has b y
                | CmpGe => forall y, has b y -> has a y
                | CmpLt => (forall y, has a y -> has b y) /\ exists y, has b y /\ ~ has a y
                | CmpGt => (forall y, has b y -> has a y) /\ exists y, has a y /\ ~ has b y
                end).
Proof.
  intros a b c A B. destruct (C48_comparisons a b 0 A B) as [_ [H1 [H2 [H3 _]]]]. destruct (C48_comparisons b a 0 B A) as [_ [_ [_ [H4 _]]]].
  destruct c; eexists; (split; [reflexivity|]); assumption.
Qed.
Print Assumptions C96_comparisons.
(** [a & b] and [a - b] are new sets with the padding of a; [a | b] and [a ^ b] raise AttributeError (C48). *)
Theorem C96_operators_sets : forall a b op, ascending (rs_elems a) -> ascending (rs_elems b) ->
  match op with
  | OpAnd => exists r, rs_operate op a (ASet b) = Ok r /\ rs_pad r = rs_pad a /\ is_set_of r (fun y => has a y /\ has b y)
  | OpSub => exists r, rs_operate op a (ASet b) = Ok r /\ rs_pad r = rs_pad a /\ is_set_of r (fun y => has a y /\ ~ has b y)
  | OpOr | OpXor => rs_operate op a (ASet b) = Raise AttributeError
  end.
Proof.
  intros a b op A B. destruct (C48_operations_partial a b 0 0 false A B) as [_ [H1 [H2 _]]].
  destruct op; [reflexivity|eexists; split; [reflexivity|]; split; [reflexivity|exact H1]|reflexivity|eexists; split; [reflexivity|]; split; [reflexivity|exact H2]].
Qed.
Print Assumptions C96_operators_sets.
Theorem C96_in_place : forall a b op, ascending (rs_elems a) -> ascending (rs_elems b) ->
  exists r, rs_operate_in_place op a (ASet b) = Ok r /\ rs_pad r = rs_pad a /\
  is_set_of r (fun y => match op with
                        | OpOr => has a y \/ has b y
                        | OpAnd => has a y /\ has b y
                        | OpXor => has a y /\ ~ has b y \/ has b y /\ ~ has a y
                        | OpSub => has a y /\ ~ has b y
                        end).
Proof.
  intros a b op A B. destruct (C48_operations_partial a b 0 0 false A B) as [_ [_ [_ [_ [H1 [H2 [H3 [H4 _]]]]]]]].
  destruct op; try (eexists; split; [reflexivity|]; split; [reflexivity|]; assumption).
  cbn [rs_operate_in_place only_set bind]. unfold rs_difference_update in *. cbn [andb] in *. eexists. split; [reflexivity|]. split; [reflexivity|]. apply H4.
Qed.
Print Assumptions C96_in_place.

Example C96_example : digits_not_space ascii_cc /\ iss ascii_cc 45%N = false /\
  let a := {| rs_elems := [-5; 7; 12]; rs_pad := Some 3; rs_step := None |} in
  ascending (rs_elems a) /\ stands_for ascii_cc (AText (lit " 007 ")) 7 /\ stands_for ascii_cc (AnInt 7) 7 /\ no_number ascii_cc (AText (lit "7-9")) /\
  rs_contains_arg ascii_cc a (AText (lit " 007 ")) = Ok true /\ rs_contains_arg ascii_cc a (AText (lit "7-9")) = Raise ValueError /\
  rs_remove_arg ascii_cc a (AText (lit "8")) = Raise KeyError /\ rs_discard_arg ascii_cc a (AText (lit "x")) = Ok a /\ no_set (AText (lit "7")).
Proof.
  split; [exact (proj1 C69_example)|]. split; [reflexivity|]. cbn zeta. split; [vm_compute; repeat constructor|].
  split; [right; exists (lit " 007 "); split; reflexivity|]. split; [left; reflexivity|]. split; [exists (lit "7-9"); split; reflexivity|].
  repeat split; discriminate.
Qed.
