(** The table of two witnesses with near matching (C105). *)
From Verif Require Import Py TokenModel SuffixModel IndexModel GraphModel AlignModel TableModel NearModel ExportModel
  CollateModel Lib GraphSpec GraphProof MergeProof RankProof AlignerProof TableSpec TableProof AlignProof CollateProof CollateSpec ResultProof
  StageProof OutputProof NearProof NearTwoProof Samples TopoProof CommonProof DrawProof PairSpec ChosenSpec PairProof Props_pair NearTableSpec NearTableProof NearLayoutProof.
From Coq Require Import QArith Sorted.
Open Scope list_scope.
Open Scope nat_scope.

Lemma two_labels : forall topo filt w1 w2 b ti g W, topo_ok topo -> good_sigla [w1; w2] -> aligner_collate topo filt b [w1; w2] = Ok (ti, g) ->
  graph_of g W -> forall wp v t, In wp W -> In (v, [t]) (snd wp) -> label_of g v = tk_str t.
Proof.
  intros topo filt w1 w2 b ti g W TO [ND NE] H GI wp v t Hp Hi.
  destruct (aligner_spec _ _ _ _ _ _ TO ND NE H) as [_ [_ [st [W' [E [AL [_ _]]]]]]].
  pose proof (al_graph _ _ _ _ _ AL) as GI'. pose proof (al_label _ _ _ _ _ AL) as LB. rewrite E in *.
  destruct (gi_on _ _ GI wp v [t] Hp Hi) as [Hv _]. destruct (dget_Some_key _ nat_eqb_ok v (g_verts g) Hv) as [vx D].
  assert (T : In (fst wp, [t]) (tokens_on W v)).
  { apply tokens_on_In. exists wp. split; [assumption|]. split; [reflexivity|]. apply (In_dget _ nat_eqb_ok); [apply (path_uniq g W GI wp Hp)|assumption]. }
  rewrite <- (gi_tokens _ _ GI v vx D), (gi_tokens _ _ GI' v vx D) in T. apply tokens_on_In in T as [wp' [P1 [_ P2]]]. apply (dget_In _ nat_eqb_ok) in P2.
  destruct (LB wp' v t P1 P2) as [vx' [D' L]]. unfold label_of. rewrite D'. assumption.
Qed.

(** ** C105: what near matching does to the table of two witnesses.
    There are pairs of positions with equal readings, going upwards in both witnesses, and each pair has a column
    of its own that is not variant.  Between two pairs (and before the first and after the last) the longer of the
    two stretches fills the columns; the tokens of the shorter one are placed from the last to the first, each
    beside the token of the longer stretch that is most like it, among the columns that leave room for the tokens
    before it and are left of the token after it; of equally good columns it takes the first.  The table without
    near matching has the same pairs and as many columns.  Without a property filter, and where no two
    neighbouring tokens of the second witness have the same reading, no other way of pairing has a better balance
    of paired and unpaired positions.  Which pairs are chosen is said
    by [chosen_pairs] (C106). *)
Theorem C105_near_table : forall cc topo ratio w1 w2 o t, topo_ok topo -> good_sigla [w1; w2] ->
  o_near o = true -> collate cc topo ratio [w1; w2] o = Ok (OTable t) ->
  exists P, agreeing (PairSpec.readings w1) (PairSpec.readings w2) P /\
    (let C := near_layout (likeness ratio (PairSpec.readings w1) (PairSpec.readings w2)) (likeness ratio (PairSpec.readings w2) (PairSpec.readings w1))
                0 0 (length (w_toks w1)) (length (w_toks w2)) P in
     (exists c1 c2, t_rows t = [{| r_header := w_sigil w1; r_cells := c1 |}; {| r_header := w_sigil w2; r_cells := c2 |}] /\
       Forall2 (shows w1) (map fst C) c1 /\ Forall2 (shows w2) (map snd C) c2) /\
     Forall2 (fun c col => c_variant col = false <-> exists x y, c = (Some x, Some y) /\ In (x, y) P) C (t_columns t)) /\
    (forall t0, collate cc topo ratio [w1; w2] (set_near o false) = Ok (OTable t0) ->
       length (t_columns t0) = length (t_columns t) /\
       let C := layout 0 0 (length (w_toks w1)) (length (w_toks w2)) P in
       (exists c1 c2, t_rows t0 = [{| r_header := w_sigil w1; r_cells := c1 |}; {| r_header := w_sigil w2; r_cells := c2 |}] /\
         Forall2 (shows w1) (map fst C) c1 /\ Forall2 (shows w2) (map snd C) c2) /\
       Forall2 (fun c col => c_variant col = false <-> exists x y, c = (Some x, Some y) /\ In (x, y) P) C (t_columns t0)) /\
    (o_filter o = None -> no_doublets (PairSpec.readings w2) -> forall P', agreeing (PairSpec.readings w1) (PairSpec.readings w2) P' ->
      (balance (length (w_toks w1)) (length (w_toks w2)) P' <= balance (length (w_toks w1)) (length (w_toks w2)) P)%Z) /\
    (o_filter o = None -> P = chosen_pairs (PairSpec.readings w1) (PairSpec.readings w2)).
Proof.
  intros cc topo ratio w1 w2 o t TO G Hn H. destruct (collate_table_inv cc topo ratio _ o t H) as [g2 [r2 [H1 H2]]].
  unfold collate_graph in H1. apply bind_ok in H1 as [[ti g] [HA H1]]. apply bind_ok in H1 as [r1 [HR H1]].
  destruct (o_astar o) eqn:AS; [discriminate|]. apply bind_ok in H1 as [[g3 r3] [NM H1]]. rewrite Hn in NM. destruct (o_segmentation o) eqn:SG; [discriminate|]. injection H1 as -> ->.
  destruct (two_collate topo (o_filter o) w1 w2 _ ti g TO G HA) as [ts1 [ts2 [p1 [p2 [GI [L1 [L2 [C1 [C2 ALG]]]]]]]]].
  destruct (ranking_spec topo g _ TO GI) as [rk [m [l [_ [R RO]]]]]. rewrite R in HR. apply ok_inj in HR. subst r1.
  set (wp1 := (w_sigil w1, steps ts1 p1)) in *. set (wp2 := (w_sigil w2, steps ts2 p2)) in *. set (W := [wp1; wp2]) in *.
  assert (NW : W <> []) by discriminate.
  destruct (two_apart g W rk m l wp1 wp2 GI RO) as [AP ONE]; [left; reflexivity|right; left; reflexivity|intros p [<-|[<-|[]]]; auto|].
  destruct (near_settled g W rk m l GI NW RO topo ratio TO AP ONE) as [g3 [r3 [N1 [N2 N3]]]]. rewrite NM in N1. injection N1 as <- <-.
  destruct N2 as [NO NF NPL NPS NI].
  destruct (two_table g wp1 wp2 rk m l GI RO) as [P [ST [SH [[c1 [c2 [TR [F1 F2]]]] FV]]]].
  assert (S1 : length (snd wp1) = length (w_toks w1)).
  { unfold wp1. cbn [snd]. unfold steps. rewrite combine_length, map_length. apply Forall2_len in C1. lia. }
  assert (S2 : length (snd wp2) = length (w_toks w2)).
  { unfold wp2. cbn [snd]. unfold steps. rewrite combine_length, map_length. apply Forall2_len in C2. lia. }
  assert (SF1 : map fst (snd wp1) = p1) by apply (steps_fst ts1 p1 L1). assert (SF2 : map fst (snd wp2) = p2) by apply (steps_fst ts2 p2 L2).
  assert (LAB1 : forall x v, nth_error (map fst (snd wp1)) x = Some v -> label_of g v = nth x (PairSpec.readings w1) []).
  { intros x v Hx. rewrite nth_error_map in Hx. destruct (nth_error (snd wp1) x) as [[v' tl]|] eqn:E; [|discriminate]. cbn in Hx. injection Hx as ->.
    destruct (shows_cell w1 ts1 p1 (Some x) (Some tl) L1 C1) as [t0 [tk [Q1 [Q2 Q3]]]]; [exists v, tl; auto|]. subst tl.
    rewrite (two_labels _ _ _ _ _ _ _ W TO G HA GI wp1 v tk (or_introl eq_refl) (nth_error_In _ _ E)).
    erewrite nth_error_nth; [|unfold PairSpec.readings; apply map_nth_error; exact Q1]. apply Q3. }
  assert (LAB2 : forall x v, nth_error (map fst (snd wp2)) x = Some v -> label_of g v = nth x (PairSpec.readings w2) []).
  { intros x v Hx. rewrite nth_error_map in Hx. destruct (nth_error (snd wp2) x) as [[v' tl]|] eqn:E; [|discriminate]. cbn in Hx. injection Hx as ->.
    destruct (shows_cell w2 ts2 p2 (Some x) (Some tl) L2 C2) as [t0 [tk [Q1 [Q2 Q3]]]]; [exists v, tl; auto|]. subst tl.
    rewrite (two_labels _ _ _ _ _ _ _ W TO G HA GI wp2 v tk (or_intror (or_introl eq_refl)) (nth_error_In _ _ E)).
    erewrite nth_error_nth; [|unfold PairSpec.readings; apply map_nth_error; exact Q1]. apply Q3. }
  destruct (near_table g wp1 wp2 rk m l GI RO ratio (pos rk g2)
    (likeness ratio (PairSpec.readings w1) (PairSpec.readings w2)) (likeness ratio (PairSpec.readings w2) (PairSpec.readings w1))) with (g2 := g2) (r2 := r2) (P := P) (t := t)
    as [[d1 [d2 [TR2 [D1 D2]]]] FV2]; auto.
  { intros x Px. apply (pos_pinned g rk g2 x NO Px). }
  { intros x y va vb Ha Hb. unfold alike, likeness. rewrite (LAB1 x va Ha), (LAB2 y vb Hb). reflexivity. }
  { intros x y va vb Ha Hb. unfold alike, likeness. rewrite (LAB2 x va Ha), (LAB1 y vb Hb). reflexivity. }
  { apply (proj1 NO). }
  rewrite S1, S2 in *. destruct (ALG P ST) as [AG [OPT [_ CHO]]]; [rewrite <- SF1, <- SF2; assumption|].
  exists P. split; [assumption|]. split; [|split; [|split; [exact OPT|exact CHO]]].
  - cbv zeta. split; [|exact FV2]. exists d1, d2. split; [exact TR2|]. split.
    + eapply PairProof.Forall2_impl; [|exact D1]. intros x c. apply shows_cell; assumption.
    + eapply PairProof.Forall2_impl; [|exact D2]. intros x c. apply shows_cell; assumption.
  - intros t0 H0. destruct (collate_table_inv cc topo ratio _ _ t0 H0) as [g0 [r0 [H3 H4]]].
    unfold collate_graph in H3. cbn [set_near o_filter o_transp o_astar o_near o_segmentation] in H3. rewrite AS, SG, HA in H3. cbn [bind] in H3. rewrite R in H3. cbn [bind] in H3. apply ok_inj in H3. injection H3 as <- <-.
    rewrite (table_spec g _ rk m l GI RO) in H4. apply ok_inj in H4. cbn [map] in H4. subst t0.
    change (w_sigil w1) with (fst wp1). change (w_sigil w2) with (fst wp2). split.
    + apply Forall2_len in FV, FV2. rewrite near_layout_length in FV2. etransitivity; [symmetry; exact FV|exact FV2].
    + cbv zeta. split; [|exact FV]. exists c1, c2. split; [exact TR|]. split.
      * eapply PairProof.Forall2_impl; [|exact F1]. intros x c. apply shows_cell; assumption.
      * eapply PairProof.Forall2_impl; [|exact F2]. intros x c. apply shows_cell; assumption.
Qed.
Print Assumptions C105_near_table.

(** The column that is chosen is the first of the best ones. *)
Theorem C105_first_best : forall f lo hi, lo < hi -> lo <= best f lo hi < hi /\
  (forall d, lo <= d < best f lo hi -> (f d < f (best f lo hi))%Q) /\ (forall d, lo <= d < hi -> (f d <= f (best f lo hi))%Q).
Proof. apply best_spec. Qed.
Print Assumptions C105_first_best.

(** A token of the shorter stretch never loses its place in the order, nor leaves the gap, nor goes to the left of
    where it stands without near matching. *)
Theorem C105_keeps_order : forall like p hi, p <= hi ->
  length (standing like p hi) = p /\ StronglySorted lt (standing like p hi) /\
  forall k c, nth_error (standing like p hi) k = Some c -> k <= c < hi.
Proof.
  intros like p hi L. split; [apply standing_length|]. destruct (standing_below like p hi L) as [S1 S2]. split; [assumption|].
  intros k c H. split; [|apply S2; apply nth_error_In in H; assumption].
  assert (Q : forall l k c, StronglySorted lt l -> nth_error l k = Some c -> forall a, (forall b, In b l -> a <= b) -> k + a <= c).
  { clear. induction l as [|b l IH]; intros k c ST H a B; [destruct k; discriminate|]. inversion ST as [|? ? S1 S2]; subst. rewrite Forall_forall in S2. destruct k as [|k].
    - injection H as <-. specialize (B b (or_introl eq_refl)). lia.
    - cbn [nth_error] in H. specialize (IH k c S1 H (S a)). assert (S a <= b \/ a = b) by (specialize (B b (or_introl eq_refl)); lia).
      assert (k + S a <= c); [|lia]. apply IH. intros b' Hb. specialize (S2 b' Hb). specialize (B b (or_introl eq_refl)). lia. }
  assert (k + 0 <= c) by (apply (Q _ k c S1 H 0); intros; lia). lia.
Qed.
Print Assumptions C105_keeps_order.

(** The hypotheses are met: six readings beside three, and three beside six.  The tokens of the shorter stretch
    move to the readings they are most like. *)
Definition near_long : witness := words "A" ["the"; "grey"; "brown"; "house"; "hare"; "ran"].
Definition near_short : witness := words "B" ["the"; "braun"; "mouse"; "ran"].
Example C105_example : exists t, good_sigla [near_long; near_short] /\
  collate ascii_cc kahn sample_ratio [near_long; near_short] (near_options "table") = Ok (OTable t) /\
  map (fun ro => map (option_map (map tk_str)) (r_cells ro)) (t_rows t) =
    [map (option_map (map (fun s => lit s))) [Some ["the"]; Some ["grey"]; Some ["brown"]; Some ["house"]; Some ["hare"]; Some ["ran"]];
     map (option_map (map (fun s => lit s))) [Some ["the"]; None; Some ["braun"]; Some ["mouse"]; None; Some ["ran"]]] /\
  near_layout (likeness sample_ratio (PairSpec.readings near_long) (PairSpec.readings near_short))
              (likeness sample_ratio (PairSpec.readings near_short) (PairSpec.readings near_long)) 0 0 6 4 [(0, 0); (5, 3)] =
    [(Some 0, Some 0); (Some 1, None); (Some 2, Some 1); (Some 3, Some 2); (Some 4, None); (Some 5, Some 3)] /\
  map c_variant (t_columns t) = [false; true; true; true; true; false].
Proof.
  destruct (collate ascii_cc kahn sample_ratio [near_long; near_short] (near_options "table")) as [x|] eqn:E; [|exfalso; vm_compute in E; discriminate].
  vm_compute in E. injection E as <-. eexists.
  split; [split; [repeat constructor; cbn; intuition discriminate|cbn; intuition discriminate]|]. split; [reflexivity|].
  split; [vm_compute; reflexivity|]. split; vm_compute; reflexivity.
Qed.
Example C105_short_first_example : exists t, good_sigla [near_short; near_long] /\
  collate ascii_cc kahn sample_ratio [near_short; near_long] (near_options "table") = Ok (OTable t) /\
  map (fun ro => map (option_map (map tk_str)) (r_cells ro)) (t_rows t) =
    [map (option_map (map (fun s => lit s))) [Some ["the"]; None; Some ["braun"]; Some ["mouse"]; None; Some ["ran"]];
     map (option_map (map (fun s => lit s))) [Some ["the"]; Some ["grey"]; Some ["brown"]; Some ["house"]; Some ["hare"]; Some ["ran"]]].
Proof.
  destruct (collate ascii_cc kahn sample_ratio [near_short; near_long] (near_options "table")) as [x|] eqn:E; [|exfalso; vm_compute in E; discriminate].
  vm_compute in E. injection E as <-. eexists.
  split; [split; [repeat constructor; cbn; intuition discriminate|cbn; intuition discriminate]|]. split; [reflexivity|]. vm_compute; reflexivity.
Qed.
