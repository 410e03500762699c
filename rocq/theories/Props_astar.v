(** Properties C43, C49, C50: the A* search of the experimental aligner. *)
From Verif Require Import Py AStarModel AStarSpec AStarProof.
From Coq Require Import Sorting.Sorted.
Open Scope list_scope.

(** ** C43: for two non-empty token sequences (or two empty ones) and every scoring, the search
    ends and gives a path of the edit graph from the start node to the end node.  Missing: one
    sequence empty and the other not. *)
Theorem C43_path_partial : forall T (mf : T -> T -> Z) wa wb, (wa = [] <-> wb = []) ->
  exists path t cost, search T mf wa wb = Ok (Some path, t) /\ edit_path T mf wa wb start_node path (end_node T wa wb) cost.
Proof.
  intros T mf wa wb H. destruct wa as [|a wa].
  - rewrite (proj1 H eq_refl). exists [], (fun _ => fresh_node), 0%Z. split; [reflexivity|constructor].
  - destruct wb as [|b wb]; [discriminate (proj2 H eq_refl)|]. destruct (search_spec T mf (a :: wa) (b :: wb)) as [l [t [E [P _]]]]; [discriminate|discriminate|].
    exists l, t. eexists. split; [exact E|exact P].
Qed.
Print Assumptions C43_path_partial.

(** If exactly one of the sequences is empty, move_cost reads a token that does not exist. *)
Theorem C43_empty_refuted : forall T (mf : T -> T -> Z) w, w <> [] -> search T mf [] w = Raise IndexError /\ search T mf w [] = Raise IndexError.
Proof. intros T mf w H. split; [apply search_empty_a|apply search_empty_b]; assumption. Qed.
Print Assumptions C43_empty_refuted.

(** ** C49: the path found has the least cost of all paths, and the score left in the end node is
    this cost. *)
Theorem C49_least_cost : forall T (mf : T -> T -> Z) wa wb path t, search T mf wa wb = Ok (Some path, t) ->
  let cost := an_g (t (end_node T wa wb)) in
  edit_path T mf wa wb start_node path (end_node T wa wb) cost /\
  forall path' cost', edit_path T mf wa wb start_node path' (end_node T wa wb) cost' -> (cost <= cost')%Z.
Proof.
  intros T mf wa wb path t E. destruct wa as [|a wa]; [destruct wb as [|b wb]|destruct wb as [|b wb]].
  - injection E as <- <-. cbn. split; [constructor|]. intros path' cost' P. eapply path_nonneg; eassumption.
  - rewrite search_empty_a in E by discriminate. discriminate.
  - rewrite search_empty_b in E by discriminate. discriminate.
  - destruct (search_spec T mf (a :: wa) (b :: wb)) as [l [t' [E' [P [O _]]]]]; [discriminate|discriminate|]. rewrite E in E'. injection E' as <- <-. split; [exact P|exact O].
Qed.
Print Assumptions C49_least_cost.

(** A concrete search: tokens are numbers, 2-3-5-4 against 1-2-3-4. *)
Definition same_number (a b : nat) : Z := if Nat.eqb a b then 0%Z else (-1)%Z.
Example C43_C49_example : exists t, search nat same_number [1; 2; 3; 4] [2; 3; 5; 4] = Ok (Some [(0, 1); (1, 2); (2, 3); (3, 3); (4, 4)], t) /\
  an_g (t (4, 4)) = 4%Z.
Proof.
  destruct (search nat same_number [1; 2; 3; 4] [2; 3; 5; 4]) as [[p t]|e] eqn:E; [|exfalso; revert E; vm_compute; discriminate].
  exists t. assert (P : p = Some [(0, 1); (1, 2); (2, 3); (3, 3); (4, 4)] /\ an_g (t (4, 4)) = 4%Z); [|destruct P as [-> P]; split; [reflexivity|exact P]].
  assert (Q : match search nat same_number [1; 2; 3; 4] [2; 3; 5; 4] with Ok (p, t) => p = Some [(0, 1); (1, 2); (2, 3); (3, 3); (4, 4)] /\ an_g (t (4, 4)) = 4%Z | Raise _ => False end) by (vm_compute; split; reflexivity).
  rewrite E in Q. exact Q.
Qed.

(** ** C50: the alignment derived from the path pairs tokens that match, and runs forward in both
    sequences.  Missing: that no token is paired twice (see the refutations). *)
Theorem C50_alignment_partial : forall T (mf : T -> T -> Z) wa wb pairs superbase, align_astar T mf wa wb = Ok (pairs, superbase) ->
  Forall (fun p => exists b a, nth_error wb (fst p) = Some b /\ nth_error wa (snd p) = Some a /\ mf a b = 0%Z) pairs /\
  StronglySorted (fun p q => fst p <= fst q /\ snd p <= snd q /\ p <> q) pairs.
Proof.
  intros T mf wa wb pairs superbase E. unfold align_astar in E. destruct (search T mf wa wb) as [[[l|] t]|e] eqn:S; [|discriminate|discriminate]. cbn [bind] in E.
  assert (P : StronglySorted not_after l) by (eapply (path_after T mf wa wb); apply (C49_least_cost _ _ _ _ _ _ S)).
  destruct (read_pairs T mf wa wb t l 0 0 (search_honest _ _ _ _ _ _ S) P) as [R1 R2]. injection E as E. rewrite E in R1, R2. cbn [fst] in *. split; [|exact R2].
  apply Forall_forall. intros [i j] Hij. destruct (R1 i j Hij) as [_ [a [b [H1 [H2 H3]]]]]. exists b, a. auto.
Qed.
Print Assumptions C50_alignment_partial.
(** The alignment leaves out no match of a cheapest path: whenever the path reads a token of each
    sequence and these match, they are paired. *)
Theorem C50_complete_partial : forall T (mf : T -> T -> Z) wa wb pairs superbase, align_astar T mf wa wb = Ok (pairs, superbase) ->
  exists path cost, edit_path T mf wa wb start_node path (end_node T wa wb) cost /\
    (forall path' cost', edit_path T mf wa wb start_node path' (end_node T wa wb) cost' -> (cost <= cost')%Z) /\
    (forall i j, In (i, j) pairs -> In (S i, S j) path) /\
    forall before i j after a b, start_node :: path = before ++ (i, j) :: (S i, S j) :: after ->
      nth_error wa j = Some a -> nth_error wb i = Some b -> mf a b = 0%Z -> In (i, j) pairs.
Proof.
  intros T mf wa wb pairs superbase E. unfold align_astar in E. destruct (search T mf wa wb) as [[[l|] t]|e] eqn:S; [|discriminate|discriminate]. cbn [bind] in E.
  destruct (C49_least_cost _ _ _ _ _ _ S) as [P O]. exists l, (an_g (t (end_node T wa wb))). split; [exact P|]. split; [exact O|]. injection E as E.
  assert (SS : StronglySorted not_after l) by (eapply (path_after T mf wa wb); exact P).
  destruct (read_pairs T mf wa wb t l 0 0 (search_honest _ _ _ _ _ _ S) SS) as [R1 R2]. cbn zeta in *. rewrite E in R1. cbn [fst] in R1. split; [intros i j H; apply (R1 i j H)|].
  intros before i j after a b EL Ha Hb Hm. replace pairs with (fst (read_path T wa wb t l 0 0)) by (rewrite E; reflexivity).
  assert (K : linked t start_node l).
  { destruct wa as [|a0 wa']; [destruct j; discriminate|]. destruct wb as [|b0 wb']; [destruct i; discriminate|].
    destruct (search_spec T mf (a0 :: wa') (b0 :: wb')) as [l' [t' [E' [_ [_ K]]]]]; [discriminate|discriminate|]. rewrite S in E'. injection E' as <- <-. exact K. }
  apply read_all.
  - destruct before as [|u before]; cbn [app] in EL; pose proof (f_equal (@tl pnode) EL) as ET; cbn [tl] in ET; rewrite ET; [left; reflexivity|]. apply in_or_app. right. right. left. reflexivity.
  - eapply (search_kept T mf wa wb); [exact S| |exact Ha|exact Hb|exact Hm]. eapply linked_pair; [exact K|exact EL].
Qed.
Print Assumptions C50_complete_partial.
(** Two copies of a sequence are aligned token by token, if a token matches itself. *)
Theorem C50_identical : forall T (mf : T -> T -> Z) w, (forall a, In a w -> mf a a = 0%Z) ->
  exists pairs superbase, align_astar T mf w w = Ok (pairs, superbase) /\ forall i j, In (i, j) pairs <-> i = j /\ i < length w.
Proof.
  intros T mf w R. destruct (C43_path_partial T mf w w) as [path0 [t0 [c0 [E0 _]]]]; [reflexivity|].
  assert (EA : exists pairs sb, align_astar T mf w w = Ok (pairs, sb)) by (unfold align_astar; rewrite E0; cbn [bind]; destruct (read_path T w w t0 path0 0 0) as [pairs sb]; eauto).
  destruct EA as [pairs [sb EA]]. exists pairs, sb. split; [exact EA|]. destruct (C50_complete_partial _ _ _ _ _ _ EA) as [path [cost [P [O [IN COMP]]]]].
  assert (D : exists pd, edit_path T mf w w start_node pd (end_node T w w) 0) by (apply diagonal_path; assumption). destruct D as [pd D]. specialize (O _ _ D).
  assert (Q : path = map (fun i => (S i, S i)) (seq 0 (length w))).
  { replace (length w) with (length w - 0) by lia. apply (free_path T mf w path 0 cost); [exact P|exact O]. }
  intros i j. split.
  - intros H. apply IN in H. rewrite Q in H. apply in_map_iff in H as [k [Hk Hs]]. injection Hk as -> ->. apply in_seq in Hs. split; [reflexivity|lia].
  - intros [<- Hi]. destruct (nth_error w i) as [a|] eqn:Ea; [|apply nth_error_None in Ea; lia].
    assert (SP : exists bef aft, start_node :: path = bef ++ (i, i) :: (S i, S i) :: aft).
    { rewrite Q. change (start_node :: map (fun i0 => (S i0, S i0)) (seq 0 (length w))) with (map (fun i0 : nat => (i0, i0)) [0] ++ map (fun i0 => (S i0, S i0)) (seq 0 (length w))).
      replace (map (fun i0 => (S i0, S i0)) (seq 0 (length w))) with (map (fun i0 : nat => (i0, i0)) (seq 1 (length w))) by (rewrite <- seq_shift, map_map; reflexivity).
      rewrite <- map_app. change ([0] ++ seq 1 (length w)) with (seq 0 (S (length w))). replace (S (length w)) with (i + S (S (length w - i - 1))) by lia. rewrite seq_app, map_app.
      eexists. eexists. cbn [seq map]. reflexivity. }
    destruct SP as [bef [aft SP]]. eapply COMP; [exact SP|exact Ea|exact Ea|]. apply R. eapply nth_error_In. exact Ea.
Qed.
Print Assumptions C50_identical.
(** Two tokens of b are aligned with the same token of a: a node stays marked as a match although
    the path reaches it by another step. *)
Theorem C50_distinct_refuted : exists wa wb pairs superbase, align_astar nat same_number wa wb = Ok (pairs, superbase) /\ ~ NoDup (map snd pairs).
Proof. exists [1], [1; 1]. eexists. eexists. split; [vm_compute; reflexivity|]. vm_compute. intros H. inversion H as [|? ? Q _]; subst. apply Q. left. reflexivity. Qed.
Print Assumptions C50_distinct_refuted.
(** What the new superbase is, for every pair of sequences. *)
Theorem C50_superbase : forall T (mf : T -> T -> Z) wa wb pairs superbase, align_astar T mf wa wb = Ok (pairs, superbase) ->
  superbase = woven wa wb 0 0 pairs.
Proof.
  intros T mf wa wb pairs superbase E. unfold align_astar in E. destruct (search T mf wa wb) as [[[l|] t]|e] eqn:S; [|discriminate|discriminate]. cbn [bind] in E.
  injection E as E. pose proof (read_woven T mf wa wb t l 0 0 (search_honest _ _ _ _ _ _ S)) as R. rewrite E in R. exact R.
Qed.
Print Assumptions C50_superbase.
(** A token of the superbase is lost: the tokens after the last match, except the last one of each
    sequence, are added. *)
Theorem C50_superbase_refuted : exists wa wb pairs superbase x, align_astar nat same_number wa wb = Ok (pairs, superbase) /\ In x wa /\ ~ In x superbase.
Proof. exists [1; 2], [3; 4]. eexists. eexists. exists 2. split; [vm_compute; reflexivity|]. split; [right; left; reflexivity|]. vm_compute. intros [H|[H|[]]]; discriminate. Qed.
Print Assumptions C50_superbase_refuted.
Example C50_example : align_astar nat same_number [1; 2; 3; 4] [2; 3; 5; 4] = Ok ([(0, 1); (1, 2); (3, 3)], [1; 2; 3; 5; 4]).
Proof. vm_compute. reflexivity. Qed.
