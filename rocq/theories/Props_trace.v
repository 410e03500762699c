(** C113: the progress report of the construction of the suffix array. *)
From Verif Require Import Py Lib SuffixModel SuffixProof Props_suffix TraceModel TraceProof.
From Coq Require Import Sorted.
Open Scope list_scope.
Open Scope nat_scope.

(** If reports can be printed, reporting does not change the suffix array. *)
Theorem C113_same_array : forall report toks, (forall ops total, report ops total = Ok tt) ->
  exists sa reports, suffix_array toks = Ok sa /\ suffix_array_traced report toks = Ok (sa, reports).
Proof.
  intros report toks R. destruct (C12_construction_total toks) as [sa H]. unfold suffix_array_traced. pose proof H as H0. unfold suffix_array in H.
  cbv zeta in *. apply bind_ok in H as [ids [E H]]. rewrite E. cbn [bind]. apply bind_ok in H as [SA [D H]].
  destruct (traced_complete report R _ _ _ _ _ 0 (nb_operations (length toks)) [] _ D) as [ops [log T]]. rewrite T. cbn [bind].
  injection H as <-. exists {| sa_voc := sorted_set toks; sa_string := ids; sa_SA := firstn (length toks) SA; sa_LCP := lcp_array ids (firstn (length toks) SA) |}, log.
  split; [exact H0|reflexivity].
Qed.
Print Assumptions C113_same_array.

(** For two tokens or more: all reports give the same total, the numbers never go down, never exceed the total and the last one
    is the total (100%); the total is at most eight times the number of tokens. *)
Theorem C113_progress : forall report toks sa reports, 2 <= length toks -> suffix_array_traced report toks = Ok (sa, reports) ->
  exists total done, reports = map (fun x => (x, total)) (done ++ [total]) /\ StronglySorted le (done ++ [total]) /\ total <= 8 * length toks.
Proof.
  intros report toks sa reports L H. unfold suffix_array_traced in H. cbv zeta in H. apply bind_ok in H as [ids [_ H]].
  apply bind_ok in H as [[[SA ops] log] [T H]]. injection H as _ <-. destruct (traced_sound _ _ _ _ _ _ _ _ _ _ _ _ T) as [_ [Q [_ [more [E R]]]]].
  specialize (Q L). cbn [Nat.add] in Q. subst ops. exists (nb_operations (length toks)), more. split; [exact E|]. split.
  - assert (W : rises 0 (more ++ [nb_operations (length toks)]) (nb_operations (length toks))).
    { apply (rises_app _ _ (nb_operations (length toks))); [exact R|apply rises_one; lia|lia]. }
    apply W.
  - apply nb_linear.
Qed.
Print Assumptions C113_progress.

(** For a single token the last report is 4 of 0. *)
Theorem C113_one_token_refuted : forall report t, (forall ops total, report ops total = Ok tt) ->
  exists sa before, suffix_array_traced report [t] = Ok (sa, before ++ [(4, 0)]).
Proof.
  intros report t R. unfold suffix_array_traced. cbv zeta. rewrite ids_ok. cbn [bind].
  set (ids := map (ident (sorted_set [t])) [t]). assert (I : ids = [1]).
  { unfold ids. pose proof (suffix_array_one t) as S. unfold suffix_array in S. rewrite ids_ok in S. cbn [bind] in S. apply bind_ok in S as [x [_ S]].
    exact (f_equal (fun r => match r with Ok a => sa_string a | Raise _ => [] end) S). }
  rewrite I. cbn [length app repeat sorted_set]. unfold dc3_traced, tell. rewrite !R. cbn.
  repeat (rewrite R; cbn). eexists. exists [(0, 0); (1, 0); (2, 0); (3, 0); (3, 0)]. reflexivity.
Qed.
Print Assumptions C113_one_token_refuted.

(** Where printing fails, as [print >> _stderr] does under Python 3, nothing is constructed. *)
Theorem C113_python3_refuted : forall report toks e, (forall ops total, report ops total = Raise e) -> suffix_array_traced report toks = Raise e.
Proof.
  intros report toks e R. unfold suffix_array_traced. cbv zeta. rewrite ids_ok. cbn [bind dc3_traced]. unfold tell at 1. rewrite R. reflexivity.
Qed.
Print Assumptions C113_python3_refuted.

(** The computation of the longest common prefixes reports, however long the text, at most 200 times; the numbers never go down and
    the last one is the length of the text (100%). *)
Theorem C113_lcp_progress : forall n, exists done, lcp_reports n = map (fun x => (x, n)) (done ++ [n]) /\
  StronglySorted le (done ++ [n]) /\ length (lcp_reports n) <= 200.
Proof.
  intros n. destruct (lcp_rising n) as [done [E [S L]]]. exists done. split; [exact E|]. split; [exact S|].
  rewrite E, map_length, app_length. cbn [length]. lia.
Qed.
Print Assumptions C113_lcp_progress.

(** Five tokens: reports up to 22 of 22. *)
Example C113_example : exists sa, suffix_array_traced (fun _ _ => Ok tt) [lit "a"; lit "b"; lit "a"; lit "b"; lit "c"] =
  Ok (sa, map (fun x => (x, 22)) [0; 3; 6; 9; 20; 22]).
Proof. eexists. vm_compute. reflexivity. Qed.
Example C113_recursion_example : exists sa, suffix_array_traced (fun _ _ => Ok tt) (repeat (lit "a") 6) =
  Ok (sa, map (fun x => (x, 36)) [0; 4; 8; 12; 12; 15; 18; 21; 32; 34; 34; 36]).
Proof. eexists. vm_compute. reflexivity. Qed.
Example C113_lcp_example : lcp_reports 3 = [(1, 3); (2, 3); (3, 3); (3, 3)] /\ length (lcp_reports 199) = 200 /\ length (lcp_reports 1000) = 101.
Proof. repeat split; vm_compute; reflexivity. Qed.
