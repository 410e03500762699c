(** The layout of the JSON text. *)
From Verif Require Import Py TokenModel SuffixModel IndexModel GraphModel TableModel ExportModel Lib JsonModel JsonSpec RangeSetModel RangeProof StageProof JsonProof LineSpec.
Open Scope list_scope.
Open Scope nat_scope.

Lemma places_app : forall k t u s, places k s (t ++ u) = match places k s t with Some s' => places k s' u | None => None end.
Proof. intros k t. induction t as [|c t IH]; intros u s; [reflexivity|]. cbn [app places]. destruct (next_place k s c); [apply IH|reflexivity]. Qed.

Lemma hex_small : forall c, (c < 32)%N -> In (c / 16)%N [0; 1]%N /\ In (c mod 16)%N (map N.of_nat (seq 0 16)).
Proof.
  intros c H. split.
  - assert (c / 16 < 2)%N by (apply N.div_lt_upper_bound; lia). generalize dependent (c / 16)%N. intros n Hn. cbn [In]. lia.
  - assert (c mod 16 < 16)%N by (apply N.mod_lt; lia). generalize dependent (c mod 16)%N. intros n Hn. apply in_map_iff. exists (N.to_nat n). split; [lia|]. apply in_seq. lia.
Qed.

Section Lines.
  Variable k : nat.

  Lemma char_place : forall d c, places k (d, Within) (json_char c) = Some (d, Within).
  Proof.
    intros d c. unfold json_char.
    repeat (match goal with |- context [if ?b then _ else _] => destruct b eqn:?H; [try reflexivity|] end).
    - apply N.ltb_lt in H6. destruct (hex_small c H6) as [A B]. cbn [map N.of_nat seq Pos.of_succ_nat Pos.succ] in B.
      cbn [In] in A, B. destruct A as [<-|[<-|[]]]; repeat (destruct B as [<-|B]; [reflexivity|]); destruct B.
    - cbn [places next_place]. rewrite H, H0, H1. reflexivity.
  Qed.
  Lemma chars_place : forall d s, places k (d, Within) (flat_map json_char s) = Some (d, Within).
  Proof. intros d s. induction s as [|c s IH]; [reflexivity|]. cbn [flat_map]. rewrite places_app, char_place. exact IH. Qed.
  Lemma string_place : forall d s, places k (d, Outside) (json_string s) = Some (d, Outside).
  Proof.
    intros d s. unfold json_string. cbn [app]. cbn [places next_place]. unfold after_char at 1. cbn [N.eqb Pos.eqb]. rewrite places_app, chars_place. reflexivity.
  Qed.
  Lemma digits_place : forall d s, Forall is_digit s -> places k (d, Outside) s = Some (d, Outside).
  Proof.
    intros d s H. induction H as [|c s C H IH]; [reflexivity|]. cbn [places next_place].
    assert (E : after_char d c = Some (d, Outside)).
    { unfold after_char, opens, closes. destruct C as [C1 C2]. repeat (match goal with |- context [N.eqb c ?x] => replace (N.eqb c x) with false by (symmetry; apply N.eqb_neq; lia) end). reflexivity. }
    rewrite E. exact IH.
  Qed.
  Lemma int_place : forall d z, places k (d, Outside) (json_int z) = Some (d, Outside).
  Proof.
    intros d z. unfold json_int. destruct (z <? 0)%Z; [cbn [places next_place]; change (after_char d 45) with (Some (d, Outside)); cbn iota|]; apply digits_place, uint_chars_digits.
  Qed.

  (** After a line break the right number of blanks has been seen. *)
  Lemma blanks_place : forall m d n, places k (d, Blanks n) (repeat 32%N m) = Some (d, Blanks (n + m)).
  Proof. induction m as [|m IH]; intros d n; [cbn; do 2 f_equal; f_equal; lia|]. cbn [repeat places next_place N.eqb Pos.eqb]. rewrite IH. do 2 f_equal. f_equal. lia. Qed.
  Lemma newline_place : forall d l, places k (d, Outside) (json_newline (Some k) l) = Some (d, Blanks (k * l)).
  Proof. intros d l. cbn [json_newline places next_place]. change (after_char d 10) with (Some (d, Blanks 0)). cbn iota. rewrite blanks_place. reflexivity. Qed.

  (** A text that begins a value or member can also follow the blanks of its line. *)
  Definition starter (c : N) : Prop := c <> 32%N /\ closes c = false.
  Lemma at_line : forall d c r, starter c -> places k (d, Blanks (k * d)) (c :: r) = places k (d, Outside) (c :: r).
  Proof.
    intros d c r [A B]. cbn [places next_place]. apply N.eqb_neq in A. rewrite A, B, Nat.eqb_refl. reflexivity.
  Qed.
  Definition piece (d : nat) (t : str) : Prop := (exists c r, t = c :: r /\ starter c) /\ places k (d, Outside) t = Some (d, Outside).
  Lemma piece_line : forall d t, piece d t -> places k (d, Blanks (k * d)) t = Some (d, Outside).
  Proof. intros d t [[c [r [-> C]]] P]. rewrite (at_line d c r C). exact P. Qed.

  Lemma joined_place : forall d l, l <> [] -> Forall (piece d) l ->
    places k (d, Blanks (k * d)) (str_join (json_comma (Some k) d) l) = Some (d, Outside).
  Proof.
    intros d l N F. induction F as [|x l X F IH]; [congruence|]. destruct l as [|y l].
    - cbn [str_join]. apply piece_line. exact X.
    - change (str_join (json_comma (Some k) d) (x :: y :: l)) with (x ++ json_comma (Some k) d ++ str_join (json_comma (Some k) d) (y :: l)).
      rewrite places_app, (piece_line d x X). rewrite places_app.
      assert (E : places k (d, Outside) (json_comma (Some k) d) = Some (d, Blanks (k * d))).
      { unfold json_comma. rewrite places_app. change (places k (d, Outside) (lit ",")) with (Some (d, Outside)). cbn iota. apply newline_place. }
      rewrite E. apply IH. discriminate.
  Qed.
  Lemma close_place : forall d c, closes c = true -> c <> 32%N -> c <> 34%N -> c <> 10%N -> opens c = false -> places k (S d, Blanks (k * d)) [c] = Some (d, Outside).
  Proof.
    intros d c C A B D E. cbn [places next_place]. apply N.eqb_neq in A, B, D. rewrite A, C. replace (S d - 1) with d by lia. rewrite Nat.eqb_refl.
    unfold after_char. rewrite B, D, E, C. reflexivity.
  Qed.

  Lemma dumps_place : forall v d, places k (d, Outside) (json_dumps (Some k) d v) = Some (d, Outside).
  Proof.
    induction v as [|b|z|s|l IH|m IH] using jval_induction; intro d.
    - reflexivity.
    - destruct b; reflexivity.
    - apply int_place.
    - apply string_place.
    - destruct l as [|x a]; [reflexivity|]. rewrite dumps_arr. cbn [places next_place]. change (after_char d 91) with (Some (S d, Outside)). cbn iota.
      rewrite places_app, newline_place, places_app, joined_place; [|discriminate|].
      + rewrite places_app, newline_place. apply close_place; reflexivity || discriminate.
      + apply Forall_forall. intros t Ht. apply in_map_iff in Ht as [v [<- Hv]]. split; [|apply IH; exact Hv].
        destruct (dumps_head (Some k) (S d) v) as [c [r [E [W [N1 N2]]]]]. exists c, r. split; [exact E|]. split; [intros ->; discriminate W|].
        unfold closes. apply N.eqb_neq in N1, N2. rewrite N1, N2. reflexivity.
    - destruct m as [|x a]; [reflexivity|]. rewrite dumps_obj. cbn [places next_place]. change (after_char d 123) with (Some (S d, Outside)). cbn iota.
      rewrite places_app, newline_place, places_app, joined_place.
      + rewrite places_app, newline_place. apply close_place; reflexivity || discriminate.
      + intros C. apply map_eq_nil in C. pose proof (sort_items_perm (x :: a)) as Q. rewrite C in Q. apply Permutation.Permutation_nil in Q. discriminate.
      + apply Forall_forall. intros t Ht. apply in_map_iff in Ht as [[key v] [<- Hv]].
        assert (Hv' : In (key, v) (x :: a)) by (eapply Permutation.Permutation_in; [apply sort_items_perm|exact Hv]).
        split; [unfold member, json_string; cbn [app]; eexists; eexists; split; [reflexivity|]; split; [discriminate|reflexivity]|].
        unfold member. cbn [fst snd]. rewrite places_app, string_place, places_app. change (places k (S d, Outside) (lit ": ")) with (Some (S d, Outside)). cbn iota. apply (IH key v Hv').
  Qed.
End Lines.

(** Without indentation there is no line break. *)
Definition one_line (t : str) : Prop := ~ In 10%N t.
Lemma line_app : forall a b, one_line a -> one_line b -> one_line (a ++ b).
Proof. unfold one_line. intros a b A B H. apply in_app_or in H. tauto. Qed.
Lemma line_string : forall s, one_line (json_string s).
Proof.
  intros s. unfold json_string. apply line_app; [intros [H|[]]; discriminate|]. apply line_app; [|intros [H|[]]; discriminate].
  intros H. apply in_flat_map in H as [c [_ H]]. revert H. unfold json_char.
  repeat (match goal with |- context [if ?b then _ else _] => destruct b eqn:?H; [try (cbn [In]; intuition discriminate)|] end).
  - apply N.ltb_lt in H6. destruct (hex_small c H6) as [A B]. cbn [map N.of_nat seq Pos.of_succ_nat Pos.succ] in B.
    cbn [In] in A, B. destruct A as [<-|[<-|[]]]; repeat (destruct B as [<-|B]; [cbn; intuition discriminate|]); destruct B.
  - intros [->|[]]. discriminate.
Qed.
Lemma line_digits : forall s, Forall is_digit s -> one_line s.
Proof. intros s F H. rewrite Forall_forall in F. apply F in H. destruct H as [H _]. lia. Qed.
Lemma line_join : forall sep l, one_line sep -> Forall one_line l -> one_line (str_join sep l).
Proof.
  intros sep l P F. induction F as [|x l X F IH]; [intros []|]. destruct l as [|y l]; [exact X|].
  change (str_join sep (x :: y :: l)) with (x ++ sep ++ str_join sep (y :: l)). apply line_app; [exact X|]. apply line_app; assumption.
Qed.
Lemma dumps_line : forall v d, one_line (json_dumps None d v).
Proof.
  induction v as [|b|z|s|l IH|m IH] using jval_induction; intro d.
  - unfold one_line; cbn. intuition discriminate.
  - destruct b; unfold one_line; cbn; intuition discriminate.
  - cbn [json_dumps]. unfold json_int. destruct (z <? 0)%Z; [intros [H|H]; [discriminate|revert H]|]; apply line_digits, uint_chars_digits.
  - apply line_string.
  - destruct l as [|x a]; [unfold one_line; cbn; intuition discriminate|]. rewrite dumps_arr. cbn [json_newline app]. intros [H|H]; [discriminate|]; revert H.
    apply line_app; [|unfold one_line; cbn; intuition discriminate]. apply line_join; [unfold one_line; cbn; intuition discriminate|]. apply Forall_forall. intros t Ht. apply in_map_iff in Ht as [v [<- Hv]]. apply IH. exact Hv.
  - destruct m as [|x a]; [unfold one_line; cbn; intuition discriminate|]. rewrite dumps_obj. cbn [json_newline app]. intros [H|H]; [discriminate|]; revert H.
    apply line_app; [|unfold one_line; cbn; intuition discriminate]. apply line_join; [unfold one_line; cbn; intuition discriminate|]. apply Forall_forall. intros t Ht. apply in_map_iff in Ht as [[key v] [<- Hv]].
    assert (Hv' : In (key, v) (x :: a)) by (eapply Permutation.Permutation_in; [apply sort_items_perm|exact Hv]).
    unfold member. cbn [fst snd]. apply line_app; [apply line_string|]. apply line_app; [unfold one_line; cbn; intuition discriminate|apply (IH key v Hv')].
Qed.
