(** Folding of RangeSet (C31): nothing that could be folded is left unfolded. *)
From Verif Require Import Py TokenModel RangeSetModel RangeSpec RangeProof.
From Coq Require Import ZArith List Lia.
Import ListNotations.
Open Scope list_scope.
Open Scope Z_scope.

(** [u]: single integers just shown, the last one first.  [cnt d u]: the differences [d] it begins with. *)
Fixpoint cnt (d : Z) (u : list Z) : Z :=
  match u with
  | x :: u' => match u' with y :: _ => if x - y =? d then 1 + cnt d u' else 0 | [] => 0 end
  | [] => 0
  end.
Fixpoint fair (b : Z) (u : list Z) : Prop :=
  match u with
  | x :: u' => match u' with y :: _ => cnt (x - y) u <= b - 1 | [] => True end /\ fair b u'
  | [] => True
  end.
Definition hdne (u : list Z) (z : Z) : Prop := match u with x :: _ => x <> z | [] => True end.

(** [f]: where the next slice may not begin. *)
Fixpoint scan (b : Z) (u : list Z) (f : option Z) (l : list pslice) : Prop :=
  match l with
  | [] => True
  | s :: l' =>
    f <> Some (sl_start s) /\
    if sl_step s =? 1 then
      if sl_start s + 1 =? sl_stop s then fair b (sl_start s :: u) /\ scan b (sl_start s :: u) None l' else scan b [] None l'
    else hdne u (sl_start s - sl_step s) /\ scan b [] (Some (sl_stop s - 1 + sl_step s)) l'
  end.

Definition fold_max (b : Z) (u : list Z) (f : option Z) (st : fstate) : Prop :=
  (f_m st = 0 \/ 2 <= f_m st) /\
  match f_prng st with
  | Some (x, _) => fair b (x :: u) /\ f <> Some x
  | None => fair b (f_istart st :: u) /\ f <> Some (f_istart st) /\ (f_m st = 0 -> u = []) /\ (f_m st <> 0 -> hdne u (f_istart st - f_m st))
  end.

Lemma scan_unit : forall b u f x rest, f <> Some x -> fair b (x :: u) -> scan b (x :: u) None rest -> scan b u f (unit_slice x :: rest).
Proof. intros b u f x rest H1 H2 H3. cbn [scan unit_slice sl_start sl_stop sl_step]. rewrite !Z.eqb_refl. auto. Qed.
Lemma scan_run : forall b u f x y rest, f <> Some x -> x + 1 < y -> scan b [] None rest -> scan b u f (prng_slice (x, y) :: rest).
Proof.
  intros b u f x y rest H1 H2 H3. cbn [scan prng_slice fst snd sl_start sl_stop sl_step]. rewrite Z.eqb_refl.
  replace (x + 1 =? y) with false by (symmetry; apply Z.eqb_neq; lia). auto.
Qed.
Lemma scan_prog : forall b u f x y m rest, f <> Some x -> 2 <= m -> hdne u (x - m) -> scan b [] (Some (y + m)) rest ->
  scan b u f ({| sl_start := x; sl_stop := y + 1; sl_step := m |} :: rest).
Proof.
  intros b u f x y m rest H1 H2 H3 H4. cbn [scan sl_start sl_stop sl_step]. replace (m =? 1) with false by (symmetry; apply Z.eqb_neq; lia).
  replace (y + 1 - 1) with y by lia. auto.
Qed.

Lemma cnt_0 : forall d x u, hdne u (x - d) -> cnt d (x :: u) = 0.
Proof.
  intros d x [|y u] H; [reflexivity|]. cbn [hdne] in H. change (cnt d (x :: y :: u)) with (if x - y =? d then 1 + cnt d (y :: u) else 0).
  destruct (x - y =? d) eqn:E; [|reflexivity]. apply Z.eqb_eq in E. lia.
Qed.
Lemma cnt_S : forall d x u, cnt d (x + d :: x :: u) = 1 + cnt d (x :: u).
Proof.
  intros. change (cnt d (x + d :: x :: u)) with (if x + d - x =? d then 1 + cnt d (x :: u) else 0).
  replace (x + d - x) with d by lia. rewrite Z.eqb_refl. reflexivity.
Qed.
Lemma fair_cons : forall b x y u, fair b (x :: y :: u) <-> cnt (x - y) (x :: y :: u) <= b - 1 /\ fair b (y :: u).
Proof. reflexivity. Qed.

(** Equally spaced integers are shown one by one. *)
Lemma emit : forall b m e n is u f rest, Z.of_nat n <= b - 1 -> e = is + m * Z.of_nat n -> fair b (is :: u) -> hdne u (is - m) -> f <> Some is -> (n = 0%nat -> u = []) ->
  (forall u' f', fair b (e :: u') -> f' <> Some e -> (forall z, z <> e - m -> hdne u' z) -> scan b u' f' rest) ->
  scan b u f (map unit_slice (arith is n m) ++ rest).
Proof.
  intros b m e n is u f rest Hn He F H Hf H0 K.
  destruct n as [|n].
  { cbn. rewrite (H0 eq_refl) in *. replace is with e in * by lia. apply K; [assumption|assumption|intros; exact I]. }
  clear H0. assert (G : forall j i v g, Z.of_nat i + Z.of_nat (S j) = Z.of_nat (S n) -> fair b (is + m * Z.of_nat i :: v) -> cnt m (is + m * Z.of_nat i :: v) = Z.of_nat i -> g <> Some (is + m * Z.of_nat i) ->
    scan b v g (map unit_slice (arith (is + m * Z.of_nat i) (S j) m) ++ rest)).
  { induction j as [|j IH]; intros i v g Hi Fv Cv Hg; rewrite arith_S; cbn [map app]; (apply scan_unit; [assumption|assumption|]).
    - cbn [arith map seq app]. apply K; [|discriminate|].
      + apply fair_cons. split; [|assumption]. replace e with (is + m * Z.of_nat i + m) by nia.
        replace (is + m * Z.of_nat i + m - (is + m * Z.of_nat i)) with m by lia. rewrite cnt_S, Cv. lia.
      + intros z Hz. cbn [hdne]. nia.
    - replace (is + m * Z.of_nat i + m) with (is + m * Z.of_nat (S i)) by nia. apply IH; [lia| | |discriminate].
      + replace (is + m * Z.of_nat (S i)) with (is + m * Z.of_nat i + m) by nia. apply fair_cons. split; [|assumption].
        replace (is + m * Z.of_nat i + m - (is + m * Z.of_nat i)) with m by lia. rewrite cnt_S, Cv. lia.
      + replace (is + m * Z.of_nat (S i)) with (is + m * Z.of_nat i + m) by nia. rewrite cnt_S, Cv. lia. }
  specialize (G n 0%nat u f). replace (is + m * Z.of_nat 0) with is in G by lia. apply G; [lia|assumption| |assumption]. rewrite cnt_0 by assumption. reflexivity.
Qed.

Lemma flush_max : forall b st prng istart m n k i u f rest, 2 <= m -> k = istart + m * Z.of_nat (S n) ->
  match prng with Some (x, y) => x + 1 < y /\ istart = y - 1 | None => True end ->
  fold_max b u f {| f_prng := prng; f_istart := istart; f_m := m; f_i := i; f_k := k |} ->
  forall out is', flush_prng st m prng istart = (out, is') ->
  exists n', k = is' + m * Z.of_nat n' /\ istart <= is' /\ (st = true -> is' = istart) /\
  ((forall u' f', (st = false -> fair b (is' :: u')) -> hdne u' (is' - m) -> f' <> Some is' -> (n' = 0%nat -> u' = []) -> scan b u' f' rest) ->
   scan b u f (out ++ rest)).
Proof.
  intros b st prng istart m n k i u f rest Hm Hk Hp [_ J] out is' H. cbn [f_prng f_istart f_m] in J. destruct prng as [[x y]|]; cbn [flush_prng] in H.
  - destruct Hp as [H1 H2]. destruct J as [J1 J2]. destruct st; injection H as <- <-.
    + exists (S n). split; [assumption|]. split; [lia|]. split; [reflexivity|]. intros K. cbn [app]. destruct (Z.eq_dec (y - 1) (x + 1)) as [E|E].
      * unfold prng_slice. cbn [fst snd]. rewrite E. apply scan_unit; [assumption|assumption|]. apply K; [discriminate| |discriminate|discriminate]. cbn [hdne]. lia.
      * apply scan_run; [assumption|lia|]. apply K; [discriminate|exact I|discriminate|discriminate].
    + exists n. split; [nia|]. split; [lia|]. split; [discriminate|]. intros K. cbn [app]. apply scan_run; [assumption|lia|]. apply K; [intros _; cbn; auto|exact I|discriminate|reflexivity].
  - injection H as <- <-. destruct J as [J1 [J2 [J3 J4]]]. exists (S n). split; [assumption|]. split; [lia|]. split; [reflexivity|]. intros K. cbn [app]. apply K; auto; [apply J4; lia|discriminate].
Qed.

Lemma fair_two : forall b x y u, 2 <= b -> fair b (y :: u) -> hdne u (y - (x - y)) -> fair b (x :: y :: u).
Proof.
  intros b x y u Hb F H. apply fair_cons. split; [|assumption].
  assert (E : cnt (x - y) (x :: y :: u) = 1 + cnt (x - y) (y :: u)) by (rewrite <- cnt_S; f_equal; f_equal; lia).
  rewrite E, cnt_0 by assumption. lia.
Qed.

Lemma step_max : forall a b st sli u f rest, a <= b -> 2 <= b -> fold_inv st -> sl_start sli < sl_stop sli -> f_k st + 1 < sl_start sli -> fold_max b u f st ->
  forall out st', folded_step a (Some st) sli = (out, st') -> (forall u' f', fold_max b u' f' st' -> scan b u' f' rest) -> scan b u f (out ++ rest).
Proof.
  intros a b [prng istart m i k] [start stop sp] u f rest Hab Hb FI Hs Hk J out st' H K. cbn [sl_start sl_stop f_k] in *. cbn [folded_step sl_start sl_stop] in H.
  pose proof FI as [FP FM]. cbn [f_prng f_istart f_m f_i f_k] in FP, FM. pose proof J as [JM JP]. cbn [f_prng f_istart f_m f_i f_k] in JM, JP.
  destruct (m =? 0) eqn:M0.
  - apply Z.eqb_eq in M0. subst m. destruct FM as [[_ FM]|[FM _]]; [|lia].
    destruct (start + 1 =? stop) eqn:U; cbn [negb] in H; injection H as <- <-.
    + cbn [app]. apply K. split; cbn [f_prng f_istart f_m]; [lia|]. destruct prng as [[x y]|]; [assumption|]. destruct JP as [J1 [J2 [J3 _]]].
      rewrite (J3 eq_refl) in *. split; [assumption|]. split; [assumption|]. split; [lia|intros _; exact I].
    + apply Z.eqb_neq in U. cbn [app]. destruct prng as [[x y]|].
      * destruct JP as [J1 J2]. apply scan_run; [assumption|lia|]. apply K. split; cbn [f_prng f_istart f_m]; [auto|]. split; [cbn; auto|discriminate].
      * destruct JP as [J1 [J2 [J3 _]]]. rewrite (J3 eq_refl) in *. apply scan_unit; [assumption|assumption|]. apply K. split; cbn [f_prng f_istart f_m]; [auto|].
        split; [|discriminate]. apply fair_two; [assumption|assumption|exact I].
  - apply Z.eqb_neq in M0. destruct FM as [[C _]|[Hm [Hi [n Hn]]]]; [contradiction|]. subst i. destruct JM as [C|JM]; [contradiction|].
    destruct (m =? start - k) eqn:MK; cbn [negb orb] in H.
    + apply Z.eqb_eq in MK. destruct (start + 1 =? stop) eqn:U; cbn [negb orb] in H.
      * injection H as <- <-. cbn [app]. apply K. rewrite <- MK. split; [right; exact JM|exact JP].
      * apply Z.eqb_neq in U. set (stepped := a * m <=? start - istart) in *. destruct (flush_prng stepped m prng istart) as [out1 is'] eqn:EF.
        destruct (flush_max b stepped prng istart m n k k u f ((if stepped then [{| sl_start := is'; sl_stop := start + 1; sl_step := m |}] else map unit_slice (py_range is' (start - m + 1) m)) ++ rest) JM Hn FP J out1 is' EF) as [n' [N1 [N2 [N3 N4]]]].
        destruct stepped eqn:ES; injection H as <- <-; rewrite <- app_assoc; apply N4; intros u' f' G1 G2 G3 G4.
        -- cbn [app]. apply scan_prog; [assumption|assumption|assumption|]. apply K. split; cbn [f_prng f_istart f_m]; [auto|]. destruct (start + 1 + 1 <? stop) eqn:L.
           ++ split; [cbn; auto|]. intros Q. injection Q as Q. lia.
           ++ apply Z.ltb_ge in L. split; [cbn; auto|]. split; [intros Q; injection Q as Q; lia|]. split; [reflexivity|]. intros C; contradiction.
        -- unfold stepped in ES. apply Z.leb_gt in ES. specialize (G1 eq_refl).
           assert (B : Z.of_nat (S n') <= b - 1) by nia. rewrite (py_range_arith is' (start - m + 1) m (S n')) by nia.
           apply (emit b m start); [assumption|nia|assumption|assumption|assumption|discriminate|]. intros u'' f'' E1 E2 E3. apply K.
           replace (start + 1 <? stop) with true by (symmetry; apply Z.ltb_lt; lia). split; cbn [f_prng f_istart f_m]; [auto|]. auto.
    + apply Z.eqb_neq in MK. set (stepped := a * m <=? k - istart) in *. destruct (flush_prng stepped m prng istart) as [out1 is'] eqn:EF.
      set (out2 := if stepped then [{| sl_start := is'; sl_stop := k + 1; sl_step := m |}] else map unit_slice (py_range is' (k - m + 1) m) ++ (if negb (start + 1 =? stop) then [unit_slice k] else [])) in *.
      destruct (flush_max b stepped prng istart m n k k u f (out2 ++ rest) JM Hn FP J out1 is' EF) as [n' [N1 [N2 [N3 N4]]]].
      assert (O : out = out1 ++ out2) by (destruct (start + 1 =? stop); [destruct stepped|]; injection H as <- <-; reflexivity).
      rewrite O, <- app_assoc. apply N4. intros u' f' G1 G2 G3 G4. destruct stepped eqn:ES.
      * unfold out2. cbn [app]. apply scan_prog; [assumption|assumption|assumption|]. apply K. destruct (start + 1 =? stop) eqn:U; injection H as _ <-; (split; cbn [f_prng f_istart f_m]; [auto|]).
        -- split; [cbn; auto|]. split; [intros Q; injection Q as Q; lia|]. split; [reflexivity|]. intros C; contradiction.
        -- split; [cbn; auto|]. intros Q; injection Q as Q; lia.
      * unfold stepped in ES. apply Z.leb_gt in ES. specialize (G1 eq_refl). assert (B : Z.of_nat n' <= b - 1) by nia.
        unfold out2. rewrite (py_range_arith is' (k - m + 1) m n') by nia. rewrite <- app_assoc.
        apply (emit b m k); [assumption|nia|assumption|assumption|assumption|assumption|]. intros u'' f'' E1 E2 E3. destruct (start + 1 =? stop) eqn:U; cbn [negb app]; injection H as _ <-.
        -- apply K. split; cbn [f_prng f_istart f_m]; [lia|]. split; [assumption|]. split; [assumption|]. split; [lia|]. intros _. apply E3. lia.
        -- apply scan_unit; [assumption|assumption|]. apply K. split; cbn [f_prng f_istart f_m]; [auto|]. split; [|discriminate]. apply fair_two; [assumption|assumption|]. apply E3. lia.
Qed.

Lemma end_max : forall a b st u f, a <= b -> 2 <= b -> fold_inv st -> fold_max b u f st -> scan b u f (folded_end a st).
Proof.
  intros a b [prng istart m i k] u f Hab Hb FI J. pose proof FI as [FP FM]. cbn [f_prng f_istart f_m f_i f_k] in FP, FM. pose proof J as [JM JP]. cbn [f_prng f_istart f_m f_i f_k] in JM, JP.
  cbn [folded_end]. destruct (m =? 0) eqn:M0.
  - apply Z.eqb_eq in M0. destruct prng as [[x y]|].
    + destruct JP as [J1 J2]. apply scan_run; [assumption|lia|exact I].
    + destruct JP as [J1 [J2 _]]. apply scan_unit; [assumption|assumption|exact I].
  - apply Z.eqb_neq in M0. destruct FM as [[C _]|[Hm [Hi [n Hn]]]]; [contradiction|]. subst i. destruct JM as [C|JM]; [contradiction|].
    set (stepped := a * m <=? k - istart) in *. destruct (flush_prng stepped m prng istart) as [out1 is'] eqn:EF.
    destruct (flush_max b stepped prng istart m n k k u f (if stepped then [{| sl_start := is'; sl_stop := k + 1; sl_step := m |}] else map unit_slice (py_range is' (k + 1) m)) JM Hn FP J out1 is' EF) as [n' [N1 [N2 [N3 N4]]]].
    apply N4. intros u' f' G1 G2 G3 G4. destruct stepped eqn:ES.
    + apply scan_prog; [assumption|assumption|assumption|exact I].
    + unfold stepped in ES. apply Z.leb_gt in ES. specialize (G1 eq_refl). assert (B : Z.of_nat n' <= b - 1) by nia.
      rewrite (py_range_arith is' (k + 1) m (S n')) by nia. rewrite arith_snoc, map_app. rewrite <- N1.
      apply (emit b m k); [assumption|assumption|assumption|assumption|assumption|assumption|]. intros u'' f'' E1 E2 E3. cbn [map]. apply scan_unit; [assumption|assumption|exact I].
Qed.

Lemma loop_max : forall a b ss st u f, a <= b -> 2 <= b -> fold_inv st -> runs ss -> (forall s, In s ss -> f_k st + 1 < sl_start s) -> fold_max b u f st -> scan b u f (folded_loop a ss (Some st)).
Proof.
  intros a b ss. induction ss as [|s ss IH]; intros st u f Hab Hb FI [R1 R2] K J; cbn [folded_loop].
  - apply end_max; assumption.
  - destruct (folded_step a (Some st) s) as [out st'] eqn:E. inversion R1 as [|? ? [Q1 Q2] R1']; subst. inversion R2 as [|? ? R2' R3]; subst.
    pose proof (K s (or_introl eq_refl)) as Ks. assert (Ks' : f_k st < sl_start s) by lia.
    destruct (step_ok a st s FI Q1 Ks' out st' E) as [_ [FI' [K' _]]].
    apply (step_max a b st s u f _ Hab Hb FI Q1 Ks J out st' E). intros u' f' J'. apply IH; auto; [split; assumption|].
    intros s' Hs'. rewrite Forall_forall in R3. specialize (R3 s' Hs'). unfold apart in R3. lia.
Qed.

Lemma scan_folded : forall a b r, a <= b -> 2 <= b -> ascending (rs_elems r) -> scan b [] None (folded_slices a r).
Proof.
  intros a b r Hab Hb A. destruct (contiguous_spec r A) as [_ [R1 R2]]. unfold folded_slices. destruct (contiguous_slices r) as [|s ss]; [exact I|].
  cbn [folded_loop folded_step]. inversion R1 as [|? ? [Q1 Q2] R1']; subst. inversion R2 as [|? ? R2' R3]; subst. rewrite Forall_forall in R3.
  destruct (sl_start s + 1 =? sl_stop s) eqn:U; cbn [app]; apply loop_max; auto.
  - split; cbn [f_prng f_istart f_m f_i f_k]; [exact I|left; split; lia].
  - split; assumption.
  - intros s' Hs'. specialize (R3 s' Hs'). unfold apart in R3. apply Z.eqb_eq in U. cbn [f_k]. lia.
  - split; cbn [f_prng f_istart f_m f_i f_k]; [lia|]. cbn [fair hdne]. repeat split; auto. discriminate.
  - apply Z.eqb_neq in U. split; cbn [f_prng f_istart f_m f_i f_k]; [lia|left; split; lia].
  - split; assumption.
  - intros s' Hs'. specialize (R3 s' Hs'). unfold apart in R3. cbn [f_k]. lia.
  - split; cbn [f_prng f_istart f_m f_i f_k]; [lia|]. cbn [fair]. repeat split; auto. discriminate.
Qed.

Lemma scan_app : forall b l l' u f, scan b u f (l ++ l') -> exists u' f', scan b u' f' l'.
Proof.
  induction l as [|s l IH]; intros l' u f H; [eauto|]. cbn [app scan] in H. destruct H as [_ H].
  destruct (sl_step s =? 1); [destruct (sl_start s + 1 =? sl_stop s); [destruct H as [_ H]|]|destruct H as [_ H]]; eapply IH; exact H.
Qed.

Lemma scan_singles : forall b d l x n u f, scan b u f (map unit_slice (arith x n d) ++ l) -> (2 <= n)%nat -> Z.of_nat n <= b.
Proof.
  intros b d l x n u f H Hn. destruct n as [|[|n]]; [lia|lia|].
  assert (G : forall j y i v g, i <= cnt d (y :: v) -> scan b (y :: v) g (map unit_slice (arith (y + d) (S j) d) ++ l) -> i + Z.of_nat (S j) <= b - 1).
  { induction j as [|j IH]; intros y i v g C Q; rewrite arith_S in Q; cbn [map app scan unit_slice sl_start sl_stop sl_step] in Q; rewrite !Z.eqb_refl in Q; destruct Q as [_ [F Q]];
      apply fair_cons in F as [F1 F2]; replace (y + d - y) with d in F1 by lia; [rewrite cnt_S in F1; lia|].
    apply (IH (y + d) (i + 1)) in Q; [lia|]. rewrite cnt_S. lia. }
  rewrite arith_S in H. cbn [map app scan unit_slice sl_start sl_stop sl_step] in H. rewrite !Z.eqb_refl in H. destruct H as [_ [_ H]].
  apply (G n x 0) in H; [lia|]. clear. revert x. induction u as [|y u IH]; intros x; [cbn; lia|].
  change (cnt d (x :: y :: u)) with (if x - y =? d then 1 + cnt d (y :: u) else 0). destruct (_ =? _); [|lia]. specialize (IH y). lia.
Qed.
