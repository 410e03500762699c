(** Proofs about PhraseModel.v. *)
From Verif Require Import Py Lib TokenModel IndexModel GraphModel GraphSpec GraphProof JoinProof QueryModel PhraseModel PhraseSpec.

Lemma edge_between_iff : forall g u v, edge_between g u v = true <-> edge g u v.
Proof.
  intros g u v. unfold edge_between, dmem, edge, edge_pairs. destruct (dget edge_eqb (u, v) (g_edges g)) as [l|] eqn:E.
  - split; [|reflexivity]. intros _. apply (dget_In _ edge_eqb_ok) in E. apply (in_map fst) in E. exact E.
  - split; [intro F; discriminate F|]. intro F. apply (dget_None _ edge_eqb_ok) in E. contradiction.
Qed.

Lemma all_same : forall {A} (l : list A) (x : A), NoDup l -> (forall y, In y l <-> y = x) -> length l = 1.
Proof.
  intros A l x ND H. destruct l as [|a [|b l]].
  - exfalso. apply (proj2 (H x) eq_refl).
  - reflexivity.
  - exfalso. inversion ND as [|? ? N1 _]; subst. apply N1. left.
    rewrite (proj1 (H a) (or_introl eq_refl)), (proj1 (H b) (or_intror (or_introl eq_refl))). reflexivity.
Qed.

Lemma out_targets : forall g u w, In w (map (fun e => snd (fst e)) (out_edges g u)) <-> edge g u w.
Proof.
  intros g u w. unfold edge, edge_pairs. rewrite !in_map_iff. split.
  - intros [[[a b] l] [H1 H2]]. apply out_edges_In in H2 as [H2 H3]. cbn in *. subst. exists ((u, w), l). auto.
  - intros [[[a b] l] [H1 H2]]. cbn in H1. injection H1 as -> ->. exists ((u, w), l). split; [reflexivity|]. apply out_edges_In. auto.
Qed.
Lemma in_sources : forall g v u, In u (map (fun e => fst (fst e)) (in_edges g v)) <-> edge g u v.
Proof.
  intros g v u. unfold edge, edge_pairs. rewrite !in_map_iff. split.
  - intros [[[a b] l] [H1 H2]]. apply in_edges_iff in H2 as [H2 H3]. cbn in *. subst. exists ((u, v), l). auto.
  - intros [[[a b] l] [H1 H2]]. cbn in H1. injection H1 as -> ->. exists ((u, v), l). split; [reflexivity|]. apply in_edges_iff. auto.
Qed.

Lemma out_NoDup : forall g u, NoDup (edge_pairs g) -> NoDup (map (fun e => snd (fst e)) (out_edges g u)).
Proof.
  intros g u. unfold edge_pairs, out_edges. induction (g_edges g) as [|[[a b] l] es IH]; intros ND; [constructor|].
  cbn [map fst] in ND. inversion ND as [|? ? N1 N2]; subst. cbn [filter fst snd]. destruct (a =? u) eqn:E; [|apply IH; assumption].
  cbn [map fst snd]. constructor; [|apply IH; assumption]. intro F. apply N1. apply Nat.eqb_eq in E. subst.
  apply in_map_iff in F as [[[x y] l'] [F1 F2]]. apply filter_In in F2 as [F2 F3]. cbn in *. apply Nat.eqb_eq in F3. subst.
  apply in_map_iff. exists ((u, b), l'). auto.
Qed.
Lemma in_NoDup : forall g v, NoDup (edge_pairs g) -> NoDup (map (fun e => fst (fst e)) (in_edges g v)).
Proof.
  intros g v. unfold edge_pairs, in_edges. induction (g_edges g) as [|[[a b] l] es IH]; intros ND; [constructor|].
  cbn [map fst] in ND. inversion ND as [|? ? N1 N2]; subst. cbn [filter fst snd]. destruct (b =? v) eqn:E; [|apply IH; assumption].
  cbn [map fst snd]. constructor; [|apply IH; assumption]. intro F. apply N1. apply Nat.eqb_eq in E. subst.
  apply in_map_iff in F as [[[x y] l'] [F1 F2]]. apply filter_In in F2 as [F2 F3]. cbn in *. apply Nat.eqb_eq in F3. subst.
  apply in_map_iff. exists ((a, v), l'). auto.
Qed.

Lemma one_only : forall {A} (l : list A) x, length l = 1 -> In x l -> forall y, In y l <-> y = x.
Proof.
  intros A [|a [|? ?]] x H Hi y; try discriminate H. destruct Hi as [->|[]]. cbn [In]. intuition auto.
Qed.

Lemma is_near_iff : forall g a b, NoDup (edge_pairs g) -> (is_near g a b = true <-> only_way g a b).
Proof.
  intros g a b ND. unfold is_near, only_way. rewrite !andb_true_iff, edge_between_iff, !Nat.eqb_eq. split.
  - intros [[E L1] L2]. split.
    + intro w. rewrite <- out_targets. apply one_only; [rewrite map_length; assumption|apply out_targets; assumption].
    + intro u. rewrite <- in_sources. apply one_only; [rewrite map_length; assumption|apply in_sources; assumption].
  - intros [H1 H2]. split; [split|].
    + apply H1. reflexivity.
    + rewrite <- (map_length (fun e => snd (fst e))). apply (all_same _ b); [apply out_NoDup; assumption|]. intro w. rewrite out_targets. apply H1.
    + rewrite <- (map_length (fun e => fst (fst e))). apply (all_same _ a); [apply in_NoDup; assumption|]. intro w. rewrite in_sources. apply H2.
Qed.

Section Cut.
  Variables (g : graph) (linked : list (nat * vid)).
  Hypothesis ND : NoDup (edge_pairs g).

  Definition flushed (cur : list (vid * token)) : list (list (vid * token)) := match cur with [] => [] | _ => [cur] end.
  (** The phrases, with the phrase under construction. *)
  Fixpoint cut (tokens : list token) (cur : list (vid * token)) : list (list (vid * token)) :=
    match tokens with
    | [] => flushed cur
    | t :: rest =>
      match link_of linked t with
      | None => flushed cur ++ cut rest []
      | Some v => match cur with
                  | [] => cut rest [(v, t)]
                  | _ => if is_near g (last (map fst cur) 0) v then cut rest (cur ++ [(v, t)]) else cur :: cut rest [(v, t)]
                  end
      end
    end.

  Lemma last_snoc : forall {A} (l : list A) x d, last (l ++ [x]) d = x.
  Proof. intros A l x d. induction l as [|a l IH]; [reflexivity|]. cbn [app last]. rewrite IH. destruct l; reflexivity. Qed.

  Definition buf (cur : list (vid * token)) : buffers := {| base_phrase := map fst cur; witness_phrase := map snd cur |}.
  Definition zips (n : nat) : list zip_object := repeat ZipOfBuffers n.
  (** What the lists hold in the end. *)
  Definition left_over (tokens : list token) (L : list (list (vid * token))) (cur : list (vid * token)) : list (vid * token) :=
    match tokens with [] => cur | _ => match last (map (link_of linked) tokens) None with None => [] | Some _ => last L [] end end.

  Lemma cut_last_nonempty : forall tokens cur, cur <> [] -> cut tokens cur <> [].
  Proof.
    induction tokens as [|t rest IH]; intros cur N; cbn [cut].
    - destruct cur; [contradiction|intro F; discriminate F].
    - destruct (link_of linked t) as [v|].
      + destruct cur as [|c cur]; [contradiction|]. destruct (is_near g (last (map fst (c :: cur)) 0) v); [|intro F; discriminate F].
        apply IH. intro F. discriminate F.
      + destruct cur; [contradiction|intro F; discriminate F].
  Qed.
  Lemma cut_linked : forall tokens cur v, last (map (link_of linked) tokens) None = Some v -> cut tokens cur <> [].
  Proof.
    induction tokens as [|t rest IH]; intros cur v H; [discriminate H|]. cbn [cut].
    destruct (link_of linked t) as [v'|] eqn:E.
    - destruct cur as [|c cur]; [apply cut_last_nonempty; intro F; discriminate F|].
      destruct (is_near _ _ _); [apply cut_last_nonempty; intro F; discriminate F|intro F; discriminate F].
    - cbn [map] in H. rewrite E in H. destruct rest as [|t' rest]; [discriminate H|]. cbn [map last] in H.
      destruct cur as [|c cur]; [|intro F; discriminate F]. cbn [flushed app]. apply (IH [] v). exact H.
  Qed.

  Lemma left_over_cons : forall t t' rest L, (forall v, last (map (link_of linked) (t' :: rest)) None = Some v -> L <> []) ->
    forall pre cur cur', left_over (t' :: rest) L cur = left_over (t :: t' :: rest) (pre ++ L) cur'.
  Proof.
    intros t t' rest L H pre cur cur'. unfold left_over. cbn [map]. change (last (link_of linked t :: link_of linked t' :: map (link_of linked) rest) None) with (last (link_of linked t' :: map (link_of linked) rest) None).
    cbn [map] in H. destruct (last (link_of linked t' :: map (link_of linked) rest) None) as [v|]; [|reflexivity].
    specialize (H v eq_refl). destruct (exists_last H) as [L' [x ->]]. rewrite app_assoc, !last_snoc. reflexivity.
  Qed.

  Lemma loop_cut : forall tokens matches cur prev, (cur <> [] -> last (map fst cur) 0 = prev) ->
    exists k fin, detect_loop g linked tokens matches (buf cur) prev = (matches ++ zips k, buf fin) /\
      k + length (flushed fin) = length (cut tokens cur) /\ fin = left_over tokens (cut tokens cur) cur.
  Proof.
    induction tokens as [|t rest IH]; intros matches cur prev Hp.
    - exists 0, cur. cbn [detect_loop zips repeat cut left_over]. rewrite app_nil_r. auto.
    - cbn [detect_loop]. fold (link_of linked t). destruct (link_of linked t) as [v|] eqn:E.
      + (* linked *)
        assert (NEXT : forall matches' cur' pre, cut (t :: rest) cur = pre ++ cut rest (cur' ++ [(v, t)]) -> exists k fin,
          detect_loop g linked rest matches' (buf (cur' ++ [(v, t)])) v = (matches' ++ zips k, buf fin) /\
          k + length (flushed fin) = length (cut rest (cur' ++ [(v, t)])) /\ fin = left_over (t :: rest) (cut (t :: rest) cur) cur).
        { intros matches' cur' pre EC. destruct (IH matches' (cur' ++ [(v, t)]) v) as [k [fin [H1 [H2 H3]]]]; [intros _; rewrite map_app; apply last_snoc|].
          exists k, fin. split; [exact H1|]. split; [exact H2|]. rewrite H3, EC. destruct rest as [|t' rest].
          - unfold left_over. cbn [map last]. rewrite E. cbn [cut flushed]. destruct (cur' ++ [(v, t)]) eqn:EE; [destruct cur'; discriminate EE|]. symmetry; apply last_snoc.
          - apply left_over_cons. intros u Hu. apply (cut_linked _ _ u Hu). }
        assert (BUF : forall c, {| base_phrase := base_phrase (buf c) ++ [v]; witness_phrase := witness_phrase (buf c) ++ [t] |} = buf (c ++ [(v, t)])).
        { intro c. unfold buf. cbn [base_phrase witness_phrase]. rewrite !map_app. reflexivity. }
        destruct cur as [|c cur].
        * assert (Z : (if is_near g prev v then (matches, buf []) else add_and_clear matches (buf [])) = (matches, buf [])) by (destruct (is_near g prev v); reflexivity).
          rewrite Z, BUF. destruct (NEXT matches [] []) as [k [fin [H1 [H2 H3]]]]; [cbn [cut]; rewrite E; reflexivity|].
          exists k, fin. split; [exact H1|]. split; [|exact H3]. rewrite H2. cbn [cut]. rewrite E. reflexivity.
        * specialize (Hp ltac:(intro F; discriminate F)). rewrite <- Hp. destruct (is_near g (last (map fst (c :: cur)) 0) v) eqn:N.
          -- rewrite BUF. destruct (NEXT matches (c :: cur) []) as [k [fin [H1 [H2 H3]]]]; [cbn [cut]; rewrite E, N; reflexivity|].
             exists k, fin. split; [exact H1|]. split; [|exact H3]. rewrite H2. cbn [cut]. rewrite E, N. reflexivity.
          -- change (add_and_clear matches (buf (c :: cur))) with (matches ++ [ZipOfBuffers], buf []). cbv iota beta. rewrite BUF.
             destruct (NEXT (matches ++ [ZipOfBuffers]) [] [c :: cur]) as [k [fin [H1 [H2 H3]]]]; [cbn [cut]; rewrite E, N; reflexivity|].
             exists (S k), fin. split; [rewrite H1; rewrite <- app_assoc; reflexivity|]. split; [|exact H3].
             cbn [cut]. rewrite E, N. cbn [length]. cbn [app] in H2. lia.
      + (* not linked *)
        assert (AC : add_and_clear matches (buf cur) = (matches ++ zips (length (flushed cur)), buf [])).
        { destruct cur as [|c cur]; [cbn; rewrite app_nil_r; reflexivity|reflexivity]. }
        rewrite AC. destruct (IH (matches ++ zips (length (flushed cur))) [] prev) as [k [fin [H1 [H2 H3]]]]; [intro F; contradiction|].
        exists (length (flushed cur) + k), fin. split; [rewrite H1; unfold zips; rewrite repeat_app, <- app_assoc; reflexivity|].
        cbn [cut]. rewrite E, app_length. split; [lia|]. rewrite H3. destruct rest as [|t' rest].
        * unfold left_over. cbn [map last]. rewrite E. reflexivity.
        * apply left_over_cons. intros u Hu. apply (cut_linked _ _ u Hu).
  Qed.

  (** The cut satisfies the specification. *)
  Lemma cut_spec : forall tokens,
    phrased g linked tokens (cut tokens []) /\
    (forall ph v t, exists p ext rest, tokens = p ++ rest /\ linked_as linked p ext /\
       (forall a b, In (a, b) (pairs (v :: map fst ext)) -> only_way g a b) /\
       cannot_go_on g linked (last (map fst ext) v) rest /\
       cut tokens (ph ++ [(v, t)]) = (ph ++ (v, t) :: ext) :: cut rest [] /\ phrased g linked rest (cut rest [])).
  Proof.
    induction tokens as [|t0 rest [IH1 IH2]].
    - split; [constructor; constructor|]. intros ph v t. exists [], [], []. split; [reflexivity|]. split; [constructor|]. split; [contradiction|]. split; [exact I|]. split; [|constructor; constructor].
      cbn [cut]. destruct (ph ++ [(v, t)]) eqn:E; [destruct ph; discriminate E|reflexivity].
    - destruct (link_of linked t0) as [v0|] eqn:E.
      + assert (A : phrased g linked (t0 :: rest) (cut (t0 :: rest) [])).
        { cbn [cut]. rewrite E. destruct (IH2 [] v0 t0) as [p [ext [r [-> [L [C [G [EQ P]]]]]]]]. cbn [app] in EQ. rewrite EQ.
          set (whole := (v0, t0) :: ext) in *. assert (NE : whole <> []) by (intro F; discriminate F).
          destruct (exists_last NE) as [ph [[v t] EW]]. rewrite EW. change (t0 :: p ++ r) with ([] ++ (t0 :: p) ++ r). constructor; auto.
          - rewrite <- EW. constructor; [split; [assumption|reflexivity]|assumption].
          - rewrite <- EW. exact C.
          - replace v with (last (map fst ext) v0); [assumption|]. assert (Q : last (map fst whole) 0 = v) by (rewrite EW, map_app; apply last_snoc).
            rewrite <- Q. unfold whole. cbn [map fst]. clear. revert v0. induction (map fst ext) as [|x l IH]; intro v0; [reflexivity|].
            change (last (v0 :: x :: l) 0) with (last (x :: l) 0). rewrite <- IH. destruct l; [reflexivity|]. cbn [last]. clear. revert x n. induction l as [|y l IH]; intros; [reflexivity|]. apply IH. }
        split; [exact A|]. intros ph v t. cbn [cut]. rewrite E. destruct (ph ++ [(v, t)]) as [|c cur] eqn:EC; [destruct ph; discriminate EC|]. rewrite <- EC.
        replace (last (map fst (ph ++ [(v, t)])) 0) with v by (rewrite map_app; symmetry; apply last_snoc).
        destruct (is_near g v v0) eqn:N.
        * destruct (IH2 (ph ++ [(v, t)]) v0 t0) as [p [ext [r [-> [L [C [G [EQ P]]]]]]]].
          exists (t0 :: p), ((v0, t0) :: ext), r. split; [reflexivity|]. split; [constructor; [split; [assumption|reflexivity]|assumption]|]. split.
          { intros a b Hab. cbn [map fst] in Hab. rewrite pairs_cons in Hab. destruct Hab as [Q|Q]; [injection Q as <- <-; apply is_near_iff; assumption|apply C; exact Q]. }
          split; [|split; [rewrite EQ, <- app_assoc; reflexivity|assumption]].
          cbn [map fst]. replace (last (v0 :: map fst ext) v) with (last (map fst ext) v0); [assumption|].
          destruct (map fst ext) as [|x l]; [reflexivity|]. change (last (v0 :: x :: l) v) with (last (x :: l) v). clear. revert x. induction l as [|y l IH]; intros; [reflexivity|]. apply IH.
        * exists [], [], (t0 :: rest). split; [reflexivity|]. split; [constructor|]. split; [contradiction|]. split.
          { intros b Hb. rewrite E in Hb. injection Hb as <-. intro O. apply is_near_iff in O; [|assumption]. cbn [map last] in O. congruence. }
          split; [|exact A]. f_equal. cbn [cut]. rewrite E. reflexivity.
      + assert (A : phrased g linked (t0 :: rest) (cut (t0 :: rest) [])).
        { cbn [cut flushed app]. rewrite E. inversion IH1 as [sk F EQ1 EQ2|sk p ph v t r phs F L C G P EQ1 EQ2].
          - constructor. constructor; assumption.
          - change (t0 :: sk ++ p ++ r) with ((t0 :: sk) ++ p ++ r). constructor; auto. }
        split; [exact A|]. intros ph v t. exists [], [], (t0 :: rest). split; [reflexivity|]. split; [constructor|]. split; [contradiction|]. split; [intros b Hb; congruence|].
        split; [|exact A]. cbn [cut]. rewrite E. destruct (ph ++ [(v, t)]) eqn:EE; [destruct ph; discriminate EE|]. reflexivity.
  Qed.

  (** There is no other way to satisfy it. *)
  Lemma cut_skip : forall skipped rest, Forall (fun t => link_of linked t = None) skipped -> cut (skipped ++ rest) [] = cut rest [].
  Proof. intros sk rest F. induction F as [|t sk E F IH]; [reflexivity|]. cbn [app cut]. rewrite E. exact IH. Qed.
  Lemma cut_phrase : forall p ph, linked_as linked p ph -> forall rest cur,
    (forall a b, In (a, b) (pairs (map fst (cur ++ ph))) -> only_way g a b) -> cut (p ++ rest) cur = cut rest (cur ++ ph).
  Proof.
    intros p ph L. induction L as [|t [v t'] p ph [E Et] L IH]; intros rest cur C; [rewrite app_nil_r; reflexivity|]. cbn [fst snd] in *. subst t'.
    cbn [app cut]. rewrite E. destruct cur as [|c cur].
    - rewrite IH; [reflexivity|exact C].
    - assert (N : is_near g (last (map fst (c :: cur)) 0) v = true).
      { apply is_near_iff; [assumption|]. apply C. assert (NE : c :: cur <> []) by (intro F; discriminate F). destruct (exists_last NE) as [l [[x y] ->]].
        replace (last (map fst (l ++ [(x, y)])) 0) with x by (rewrite map_app; symmetry; apply last_snoc). rewrite <- app_assoc, map_app. cbn [app map fst]. rewrite pairs_app. apply in_or_app. right. left. reflexivity. }
      rewrite N, IH; [rewrite <- app_assoc; reflexivity|]. rewrite <- app_assoc. exact C.
  Qed.
  Lemma cut_stop : forall cur v t rest, cannot_go_on g linked v rest -> cut rest (cur ++ [(v, t)]) = (cur ++ [(v, t)]) :: cut rest [].
  Proof.
    intros cur v t [|t' rest] G; cbn [cut].
    - destruct (cur ++ [(v, t)]) eqn:E; [destruct cur; discriminate E|reflexivity].
    - destruct (link_of linked t') as [v'|] eqn:E.
      + destruct (cur ++ [(v, t)]) as [|c l] eqn:EC; [destruct cur; discriminate EC|]. rewrite <- EC.
        replace (last (map fst (cur ++ [(v, t)])) 0) with v by (rewrite map_app; symmetry; apply last_snoc).
        destruct (is_near g v v') eqn:N; [|reflexivity]. exfalso. apply (G v' E). apply is_near_iff; assumption.
      + destruct (cur ++ [(v, t)]) eqn:EC; [destruct cur; discriminate EC|reflexivity].
  Qed.
  Lemma phrased_cut : forall tokens phs, phrased g linked tokens phs -> phs = cut tokens [].
  Proof.
    intros tokens phs P. induction P as [sk F|sk p ph v t rest phs F L C G P IH].
    - rewrite <- (app_nil_r sk), cut_skip; [reflexivity|assumption].
    - rewrite cut_skip by assumption. rewrite (cut_phrase _ _ L rest []) by exact C. rewrite app_nil_l, cut_stop, IH; [reflexivity|assumption].
  Qed.

  Theorem matches_read : forall tokens, 
    phrase_matches g linked tokens = repeat (match last (map (link_of linked) tokens) None with None => [] | Some _ => last (cut tokens []) [] end) (length (cut tokens [])).
  Proof.
    intros tokens. unfold phrase_matches, detect_phrases. destruct (loop_cut tokens [] [] v_start) as [k [fin [H1 [H2 H3]]]]; [intro F; contradiction|].
    change {| base_phrase := []; witness_phrase := [] |} with (buf []). rewrite H1. cbn [app].
    assert (Z : (match base_phrase (buf fin) with [] => zips k | _ => zips k ++ [ZipOfBuffers] end) = zips (k + length (flushed fin))).
    { destruct fin as [|c fin]; cbn [buf map base_phrase flushed length]; [rewrite Nat.add_0_r; reflexivity|]. unfold zips. rewrite repeat_app. reflexivity. }
    assert (R : zip_list (buf fin) ZipOfBuffers = fin).
    { cbn [zip_list buf base_phrase witness_phrase]. clear. induction fin as [|[a b] l IH]; [reflexivity|]. cbn [map fst snd combine]. rewrite IH. reflexivity. }
    assert (M : forall l, l = zips (k + length (flushed fin)) -> map (zip_list (buf fin)) l = repeat fin (length (cut tokens []))).
    { intros l ->. rewrite H2. unfold zips. rewrite <- R at 2. clear. induction (length (cut tokens [])) as [|n IH]; [reflexivity|]. cbn [repeat map]. rewrite IH. reflexivity. }
    destruct (base_phrase (buf fin)); rewrite (M _ Z), H3; unfold left_over; destruct tokens; reflexivity.
  Qed.
End Cut.
