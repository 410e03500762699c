(** C112: the table of the heuristic values of the A* aligner. *)
From Verif Require Import Py AStarModel AStarSpec HeurModel.
Open Scope list_scope.
Open Scope nat_scope.

(** The entry for [y] tokens of the witness and [x] tokens of the superbase. *)
Definition entry {T} (wa wb : list T) (y x : nat) (h : Z) : Prop :=
  exists row, nth_error (heuristic_table wa wb) y = Some row /\ nth_error row x = Some h.

Lemma nth_error_map_seq : forall {A} (f : nat -> A) n i, nth_error (map f (seq 0 n)) i = if i <? n then Some (f i) else None.
Proof.
  intros A f n i. destruct (Nat.ltb_spec i n) as [L|L].
  - rewrite nth_error_map. replace (nth_error (seq 0 n) i) with (Some i); [reflexivity|]. symmetry.
    rewrite (nth_error_nth' _ 0) by (rewrite seq_length; lia). rewrite seq_nth by lia. reflexivity.
  - apply nth_error_None. rewrite map_length, seq_length. lia.
Qed.

(** Every node of the edit graph has one entry, nothing else has, and the entry is the number of gaps by which the
    witness and the superbase read so far differ in length (counted in halves). *)
Theorem C112_entries : forall T (wa wb : list T) y x h,
  entry wa wb y x h <-> y <= length wb /\ x <= length wa /\ h = (2 * Z.abs (Z.of_nat y - Z.of_nat x))%Z.
Proof.
  intros T wa wb y x h. unfold entry, heuristic_table. rewrite nth_error_map_seq. split.
  - intros [row [R E]]. destruct (Nat.ltb_spec y (length wb + 1)); [|discriminate]. injection R as <-. rewrite nth_error_map_seq in E.
    destruct (Nat.ltb_spec x (length wa + 1)); [|discriminate]. injection E as <-. unfold heuristic. cbn [fst snd]. split; [lia|]. split; lia.
  - intros [Hy [Hx ->]]. destruct (Nat.ltb_spec y (length wb + 1)); [|lia]. eexists. split; [reflexivity|]. rewrite nth_error_map_seq.
    destruct (Nat.ltb_spec x (length wa + 1)); [|lia]. unfold heuristic. cbn [fst snd]. f_equal. lia.
Qed.
Print Assumptions C112_entries.

Lemma match_cost_nonneg : forall m, (0 <= match_cost m)%Z.
Proof. intro m. unfold match_cost. destruct (m =? 0)%Z; [lia|]. destruct (m =? 1)%Z; lia. Qed.

(** From one node to the next the entry falls by no more than the step costs. *)
Theorem C112_consistent : forall T (mf : T -> T -> Z) wa wb y x y' x' c h h', edit_step T mf wa wb (y, x) (y', x') c ->
  entry wa wb y x h -> entry wa wb y' x' h' -> (h <= c + h')%Z.
Proof.
  intros T mf wa wb y x y' x' c h h' S E E'. apply C112_entries in E as [_ [_ ->]]. apply C112_entries in E' as [_ [_ ->]].
  inversion S; subst; [lia|lia|]. pose proof (match_cost_nonneg (mf a b)). lia.
Qed.
Print Assumptions C112_consistent.

Lemma path_bound : forall T (mf : T -> T -> Z) wa wb p path q c, edit_path T mf wa wb p path q c ->
  (2 * Z.abs (Z.of_nat (fst p) - Z.of_nat (snd p)) <= c + 2 * Z.abs (Z.of_nat (fst q) - Z.of_nat (snd q)))%Z.
Proof.
  induction 1 as [p|p q path r c c' S P IH]; [lia|]. inversion S; subst; cbn [fst snd] in *; [lia|lia|].
  pose proof (match_cost_nonneg (mf a b)). lia.
Qed.

(** An entry is at most the cost of any way from its node to the end and the gaps that the difference of the two lengths makes;
    for texts of the same length it is at most the cost of the way. *)
Theorem C112_lower_bound : forall T (mf : T -> T -> Z) wa wb y x h path c, entry wa wb y x h ->
  edit_path T mf wa wb (y, x) path (end_node T wa wb) c ->
  (h <= c + 2 * Z.abs (Z.of_nat (length wb) - Z.of_nat (length wa)))%Z /\ (length wa = length wb -> (h <= c)%Z).
Proof.
  intros T mf wa wb y x h path c E P. apply C112_entries in E as [_ [_ ->]]. apply path_bound in P. cbn [fst snd end_node] in P.
  split; [exact P|]. intros L. rewrite L in P. lia.
Qed.
Print Assumptions C112_lower_bound.

(** Texts of different lengths: the entry of the end node itself is the difference of the lengths, although nothing is left to do. *)
Theorem C112_end_refuted : forall T (mf : T -> T -> Z) (wa wb : list T), length wa <> length wb ->
  exists h, entry wa wb (length wb) (length wa) h /\ edit_path T mf wa wb (length wb, length wa) [] (end_node T wa wb) 0 /\ (0 < h)%Z.
Proof.
  intros T mf wa wb N. eexists. split; [apply C112_entries; split; [lia|split; [lia|reflexivity]]|]. split; [constructor|lia].
Qed.
Print Assumptions C112_end_refuted.

(** A witness of two tokens against a superbase of three; and a way of cost 2 (one gap) from the node after the first token of
    the superbase of a pair of the same length. *)
Example C112_example : heuristic_table [1; 2; 3] [1; 3] = [[0; 2; 4; 6]; [2; 0; 2; 4]; [4; 2; 0; 2]]%Z.
Proof. reflexivity. Qed.
Example C112_way_example : let mf := fun a b : nat => if a =? b then 0%Z else (-1)%Z in
  edit_path nat mf [1; 2] [2; 3] (0, 1) [(1, 2); (2, 2)] (end_node nat [1; 2] [2; 3]) 2 /\ entry [1; 2] [2; 3] 0 1 2.
Proof.
  intro mf. split.
  - apply (ep_cons nat _ _ _ _ (1, 2) _ _ 0 2); [exact (es_both nat mf [1; 2] [2; 3] 0 1 2 2 eq_refl eq_refl)|].
    apply (ep_cons nat _ _ _ _ (2, 2) _ _ 2 0); [apply es_addition; cbn; lia|constructor].
  - apply C112_entries. cbn. split; [lia|split; [lia|reflexivity]].
Qed.
