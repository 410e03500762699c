(** The drawing shows the graph (C52). *)
From Verif Require Import Py TokenModel SuffixModel IndexModel GraphModel AlignModel TableModel NearModel ExportModel
  CollateModel Lib GraphSpec GraphProof MergeProof RankProof AlignerProof TableSpec TableProof AlignProof CollateProof CollateSpec ResultProof StageProof OutputProof
  NearProof NearSpec ExportSpec ExportProof InstProof FactsProof DrawModel DrawSpec.
From Coq Require Import Permutation Relations QArith Sorting.
From Coq Require DecimalNat.
Open Scope list_scope.
Open Scope nat_scope.

(** ** Texts *)
Lemma uint_chars_inj : forall a b, uint_chars a = uint_chars b -> a = b.
Proof. induction a; destruct b; cbn [uint_chars]; intros H; try discriminate; try reflexivity; injection H as H; f_equal; auto. Qed.
Lemma str_of_nat_inj : forall a b, str_of_nat a = str_of_nat b -> a = b.
Proof.
  intros a b H. apply uint_chars_inj in H. rewrite <- (DecimalNat.Unsigned.of_to a), <- (DecimalNat.Unsigned.of_to b), H. reflexivity.
Qed.

Lemma svg_escape_tags : forall s, svg_escape s = without_tags s.
Proof.
  unfold svg_escape, without_tags. induction s as [|c s IH]; [reflexivity|]. cbn [flat_map]. rewrite flat_map_app, IH. f_equal.
  destruct (N.eqb c 60) eqn:E; [reflexivity|]. cbn [flat_map]. apply app_nil_r.
Qed.
Lemma tags_app : forall a b, without_tags (a ++ b) = without_tags a ++ without_tags b.
Proof. intros. apply flat_map_app. Qed.
Lemma tags_concat : forall l, without_tags (concat l) = concat (map without_tags l).
Proof. induction l as [|x l IH]; [reflexivity|]. cbn [concat map]. rewrite tags_app, IH. reflexivity. Qed.

(** ** Readings *)
Lemma reading_text : forall ts l, mapM (fun t => s <- token_t t ;; Ok (svg_escape s)) ts = Ok l ->
  exists s, text_of ts s /\ concat l = without_tags s.
Proof.
  induction ts as [|t ts IH]; intros l H; cbn [mapM] in H.
  - injection H as <-. exists []. split; [exists []; split; [constructor|reflexivity]|reflexivity].
  - apply bind_ok in H as [x [H1 H]]. apply bind_ok in H as [y [H2 H]]. injection H as <-. apply bind_ok in H1 as [s [H1 E]]. injection E as <-.
    destruct (IH y H2) as [s' [[l' [T1 T2]] T3]]. exists (s ++ s'). split.
    + exists (s :: l'). split; [|rewrite T2; reflexivity]. constructor; [|assumption]. unfold token_t in H1. apply bind_ok in H1 as [v [D H1]].
      apply dgetE_ok in D. destruct v; try discriminate. injection H1 as <-. assumption.
    + cbn [concat]. rewrite tags_app, T3, svg_escape_tags. reflexivity.
Qed.

Lemma text_of_unique : forall ts s1 s2, text_of ts s1 -> text_of ts s2 -> s1 = s2.
Proof.
  intros ts s1 s2 [l1 [F1 ->]] [l2 [F2 ->]]. f_equal. revert l2 F2. induction F1 as [|t x ts l1 E F IH]; intros l2 F2; inversion F2; subst; [reflexivity|].
  rewrite E in H1. injection H1 as <-. f_equal. auto.
Qed.

Lemma add_in_place : forall (k : str) sg (d : list (str * list str)) old, dget str_eqb k d = Some old ->
  Permutation (flat_map snd (dset str_eqb k (old ++ [sg]) d)) (sg :: flat_map snd d).
Proof.
  induction d as [|[k' v'] d IH]; intros old H; cbn [dget dset] in *; [discriminate|]. destruct (str_eqb k k') eqn:E.
  - injection H as ->. cbn [flat_map snd]. rewrite <- app_assoc. cbn [app]. symmetry. apply Permutation_middle.
  - cbn [flat_map snd]. rewrite (IH old H). apply Permutation_sym, Permutation_middle.
Qed.

Lemma readings_fold : forall toks d, foldM add_reading toks [] = Ok d ->
  NoDup (map fst d) /\ Permutation (flat_map snd d) (map fst toks) /\ (forall k sgs, In (k, sgs) d -> sgs <> []) /\
  (forall sg reading, (exists sgs, dget str_eqb reading d = Some sgs /\ In sg sgs) <-> exists ts s, In (sg, ts) toks /\ text_of ts s /\ reading = without_tags s).
Proof.
  intros toks d H. pattern toks, d. apply (foldM_ok_inv _ _ _ _ _ H); clear.
  - split; [constructor|]. split; [constructor|]. split; [intros k sgs []|]. intros sg reading. split; [intros [sgs [E _]]; discriminate|intros [ts [s [[] _]]]].
  - intros pre [sg0 ts0] b b' _ H [I1 [I2 [I3 I4]]]. unfold add_reading in H. cbn [fst snd] in H. apply bind_ok in H as [l [L H]]. injection H as <-.
    destruct (reading_text ts0 l L) as [s0 [T0 E0]]. set (key := concat l) in *. set (old := match dget str_eqb key b with Some sgs => sgs | None => [] end).
    split; [apply (dset_NoDup _ str_eqb_ok); assumption|]. split; [|split].
    + rewrite map_app. cbn [map fst]. transitivity (sg0 :: flat_map snd b); [|rewrite I2; apply Permutation_cons_append]. unfold old. destruct (dget str_eqb key b) as [o|] eqn:D.
      * apply add_in_place. assumption.
      * rewrite (dset_new _ str_eqb_ok) by (apply (dget_None _ str_eqb_ok); assumption). rewrite flat_map_app. cbn [flat_map snd app]. symmetry. apply Permutation_cons_append.
    + intros k sgs Hi. apply dset_In_gen in Hi as [->|Hi]; [destruct old; discriminate|apply (I3 k sgs Hi)].
    + intros sg reading. rewrite (dget_set _ str_eqb_ok). split.
      * intros [sgs [E Hs]]. destruct (str_eqb key reading) eqn:EK.
        -- injection E as <-. apply str_eqb_ok in EK. subst reading. apply in_app_iff in Hs as [Hs|[<-|[]]].
           ++ unfold old in Hs. destruct (dget str_eqb key b) as [o|] eqn:D; [|contradiction].
              destruct (proj1 (I4 sg key)) as [ts [s [A B]]]; [exists o; auto|]. exists ts, s. split; [apply in_or_app; auto|assumption].
           ++ exists ts0, s0. split; [apply in_or_app; right; left; reflexivity|]. auto.
        -- destruct (proj1 (I4 sg reading)) as [ts [s [A B]]]; [exists sgs; auto|]. exists ts, s. split; [apply in_or_app; auto|assumption].
      * intros [ts [s [Hi [T ->]]]]. apply in_app_iff in Hi as [Hi|[Hi|[]]].
        -- destruct (proj2 (I4 sg (without_tags s))) as [sgs [A B]]; [exists ts, s; auto|]. destruct (str_eqb key (without_tags s)) eqn:EK.
           ++ apply str_eqb_ok in EK. exists (old ++ [sg0]). split; [reflexivity|]. apply in_or_app. left. unfold old. rewrite EK, A. assumption.
           ++ exists sgs. auto.
        -- injection Hi as -> ->. rewrite (text_of_unique _ _ _ T T0), <- E0. rewrite str_eqb_refl. exists (old ++ [sg]). split; [reflexivity|]. apply in_or_app. right. left. reflexivity.
Qed.

Lemma ok_inj : forall {A} (a b : A), Ok a = Ok b -> a = b.
Proof. intros A a b H. congruence. Qed.

Lemma svg_label_ok : forall k vx label, svg_label k vx = Ok label -> exists lines, label = node_label (v_label vx) k lines /\ lines_ok (v_tokens vx) lines.
Proof.
  intros k vx label H. unfold svg_label in H. apply bind_ok in H as [d [H1 H]]. apply ok_inj in H. subst label. destruct (readings_fold _ _ H1) as [A [B [C D]]].
  exists (sort_items d). split.
  - unfold node_label, dq. cbn [concat map]. rewrite flat_map_concat_map.
    replace (map (fun '(key, sgs) => svg_row (lit "<FONT FACE='Bukyvede'>" ++ key ++ lit "</FONT>") (str_join (lit ", ") sgs)) (sort_items d))
      with (map (fun l => label_line (lit "<FONT FACE='Bukyvede'>" ++ fst l ++ lit "</FONT>") (str_join (lit ", ") (snd l))) (sort_items d)).
    + change svg_row with label_line. rewrite <- !app_assoc. reflexivity.
    + apply map_ext. intros [key sgs]. reflexivity.
  - split; [apply increasing_sorted; apply sort_items_sorted; assumption|]. split; [|split].
    + rewrite <- B. apply Permutation_flat_map. apply sort_items_perm.
    + intros reading sgs Hi. apply (C reading). apply (sort_items_In (reading, sgs) d). assumption.
    + intros sg reading. rewrite <- D. split; intros [sgs [X Y]]; exists sgs; (split; [|assumption]).
      * apply (In_dget _ str_eqb_ok); [assumption|]. apply (sort_items_In (reading, sgs) d). assumption.
      * apply (sort_items_In (reading, sgs) d). apply (dget_In _ str_eqb_ok). assumption.
Qed.

Lemma svg_label_total : forall k vx, (forall sg ts tk, In (sg, ts) (v_tokens vx) -> In tk ts -> exists s, dget str_eqb (lit "t") (tk_data tk) = Some (JStr s)) ->
  exists label, svg_label k vx = Ok label.
Proof.
  intros k vx H. assert (X : forall toks d, (forall sg ts tk, In (sg, ts) toks -> In tk ts -> exists s, dget str_eqb (lit "t") (tk_data tk) = Some (JStr s)) -> exists d', foldM add_reading toks d = Ok d').
  { clear. induction toks as [|[sg ts] toks IH]; intros d H; cbn [foldM]; [eauto|]. unfold add_reading at 1. cbn [fst snd].
    destruct (mapM_total (fun t => s <- token_t t ;; Ok (svg_escape s)) ts) as [l L].
    - intros t Ht. destruct (H sg ts t (or_introl eq_refl) Ht) as [s D]. unfold token_t, dgetE. rewrite D. cbn [bind]. eauto.
    - rewrite L. cbn [bind]. apply IH. intros sg' ts' tk Hi Ht. apply (H sg' ts' tk); [right|]; assumption. }
  destruct (X (v_tokens vx) [] H) as [d D]. unfold svg_label. rewrite D. cbn [bind]. eauto.
Qed.

(** ** Nodes *)
Section Nodes.
  Variables (simple : bool) (r : ranking).

  Record nodes_inv (xs : list (vid * vertex)) (st : nat * list (vid * str) * list dot_node) : Prop := {
    ni_count : fst (fst st) = length xs;
    ni_keys : map fst (snd (fst st)) = map fst xs;
    ni_bound : forall v s, dget Nat.eqb v (snd (fst st)) = Some s -> exists i, i < length xs /\ s = str_of_nat (S i);
    ni_inj : forall u v s, dget Nat.eqb u (snd (fst st)) = Some s -> dget Nat.eqb v (snd (fst st)) = Some s -> u = v;
    ni_nodes : Forall2 (fun x n => dget Nat.eqb (fst x) (snd (fst st)) = Some (dn_id n) /\ label_ok simple r (fst x) (snd x) (dn_label n)) xs (snd st)
  }.

  Lemma simple_label_ok : forall v vx, label_ok true r v vx (simple_label vx).
  Proof. intros v vx. unfold label_ok, simple_label. destruct (v_label vx); [right; auto|left; split; [discriminate|reflexivity]]. Qed.

  Lemma nodes_fold : forall xs st, foldM (draw_node simple r) xs (0, [], []) = Ok st -> NoDup (map fst xs) -> nodes_inv xs st.
  Proof.
    intros xs st H. pattern xs, st. apply (foldM_ok_inv _ _ _ _ _ H); clear H.
    - intros _. constructor; cbn; try reflexivity; try discriminate; constructor.
    - intros pre [v vx] [[k m] nodes] b' _ H IH ND. rewrite map_app in ND. cbn [map fst] in ND. apply NoDup_app_iff in ND as [ND [_ NV]].
      assert (Nv : ~ In v (map fst pre)) by (intros C; apply (NV v C); left; reflexivity). clear NV.
      destruct (IH ND) as [C K B I F]. cbn [fst snd] in *. clear IH. subst k.
      unfold draw_node in H. cbn [fst snd] in H. apply bind_ok in H as [label [L H]]. injection H as <-.
      assert (NM : dset Nat.eqb v (str_of_nat (S (length pre))) m = m ++ [(v, str_of_nat (S (length pre)))]) by (apply (dset_new _ nat_eqb_ok); rewrite K; assumption).
      constructor; cbn [fst snd].
      + rewrite app_length. cbn [length]. lia.
      + rewrite NM, !map_app, K. reflexivity.
      + intros u s D. rewrite (dget_set _ nat_eqb_ok) in D. rewrite app_length. cbn [length]. destruct (v =? u).
        * injection D as <-. exists (length pre). split; [lia|reflexivity].
        * destruct (B u s D) as [i [Hi ->]]. exists i. split; [lia|reflexivity].
      + intros a b s D1 D2. rewrite (dget_set _ nat_eqb_ok) in D1, D2.
        destruct (v =? a) eqn:E1; destruct (v =? b) eqn:E2.
        * apply Nat.eqb_eq in E1, E2. congruence.
        * injection D1 as <-. destruct (B b _ D2) as [i [Hi E]]. apply str_of_nat_inj in E. lia.
        * injection D2 as <-. destruct (B a _ D1) as [i [Hi E]]. apply str_of_nat_inj in E. lia.
        * apply (I a b s D1 D2).
      + apply Forall2_app.
        * assert (Q : forall l ns, incl (map fst l) (map fst pre) -> Forall2 (fun x n => dget Nat.eqb (fst x) m = Some (dn_id n) /\ label_ok simple r (fst x) (snd x) (dn_label n)) l ns ->
            Forall2 (fun x n => dget Nat.eqb (fst x) (dset Nat.eqb v (str_of_nat (S (length pre))) m) = Some (dn_id n) /\ label_ok simple r (fst x) (snd x) (dn_label n)) l ns).
          { intros l ns IN G. induction G as [|x n l ns [G1 G2] G IHG]; constructor.
            - split; [|assumption]. rewrite (dget_set _ nat_eqb_ok). destruct (v =? fst x) eqn:E; [|assumption].
              apply Nat.eqb_eq in E. exfalso. apply Nv. rewrite E. apply IN. left. reflexivity.
            - apply IHG. intros y Hy. apply IN. right. assumption. }
          apply Q; [apply incl_refl|assumption].
        * constructor; [|constructor]. cbn [fst snd dn_id dn_label]. rewrite (dget_set_same _ nat_eqb_ok). split; [reflexivity|].
          destruct simple; [injection L as <-; apply simple_label_ok|]. apply bind_ok in L as [k [L1 L2]]. apply dgetE_ok in L1.
          destruct (svg_label_ok k vx label L2) as [lines X]. exists k, lines. auto.
  Qed.

  Lemma nodes_total : forall xs st, (simple = false -> forall x, In x xs -> (exists k, dget Nat.eqb (fst x) (by_vertex r) = Some k) /\
      forall sg ts tk, In (sg, ts) (v_tokens (snd x)) -> In tk ts -> exists s, dget str_eqb (lit "t") (tk_data tk) = Some (JStr s)) ->
    exists st', foldM (draw_node simple r) xs st = Ok st'.
  Proof.
    induction xs as [|[v vx] xs IH]; intros [[k m] ns] H; [eexists; reflexivity|]. cbn [foldM]. unfold draw_node at 1. cbn [fst snd].
    assert (X : exists label, (if simple then Ok (simple_label vx) else rank <- dgetE Nat.eqb v (by_vertex r) ;; svg_label rank vx) = Ok label).
    { destruct simple; [eauto|]. destruct (H eq_refl (v, vx) (or_introl eq_refl)) as [[j J] T]. cbn [fst snd] in *. unfold dgetE. rewrite J. cbn [bind]. apply svg_label_total. assumption. }
    destruct X as [label X]. rewrite X. cbn [bind]. apply IH. intros E x Hx. apply (H E). right. assumption.
  Qed.
End Nodes.

(** ** The drawing *)
Lemma partition_edges : forall {A} (vs : list vid) (es : list (vid * vid * A)), NoDup vs -> (forall e, In e es -> In (fst (fst e)) vs) ->
  Permutation (flat_map (fun u => filter (fun e => fst (fst e) =? u) es) vs) es.
Proof.
  intros A vs es ND H. revert vs ND H. induction es as [|e es IH]; intros vs ND H.
  - replace (flat_map _ vs) with (@nil (vid * vid * A)); [reflexivity|]. symmetry. clear. induction vs; [reflexivity|assumption].
  - destruct (in_split _ _ (H e (or_introl eq_refl))) as [l1 [l2 E]].
    assert (N : forall u, In u l1 \/ In u l2 -> (fst (fst e) =? u) = false).
    { intros u Hu. apply Nat.eqb_neq. intros C. subst u. rewrite E in ND. apply NoDup_remove_2 in ND. apply ND. apply in_or_app. assumption. }
    assert (X : Permutation (flat_map (fun u => filter (fun e0 => fst (fst e0) =? u) (e :: es)) vs) (e :: flat_map (fun u => filter (fun e0 => fst (fst e0) =? u) es) vs)).
    { rewrite E, !flat_map_app. cbn [flat_map]. rewrite (flat_map_ext_In _ (fun u => filter (fun e0 => fst (fst e0) =? u) es) l1) by (intros u Hu; cbn [filter]; rewrite N by auto; reflexivity).
      rewrite (flat_map_ext_In (fun u => filter (fun e0 => fst (fst e0) =? u) (e :: es)) (fun u => filter (fun e0 => fst (fst e0) =? u) es) l2) by (intros u Hu; cbn [filter]; rewrite N by auto; reflexivity).
      cbn [filter]. rewrite Nat.eqb_refl. cbn [app]. symmetry. apply Permutation_middle. }
    rewrite X. apply perm_skip. apply IH; [assumption|]. intros e' He. apply H. right. assumption.
Qed.

Lemma mapM_map : forall {A B} (f : A -> res B) (h : A -> B) l bs, (forall a b, In a l -> f a = Ok b -> b = h a) -> mapM f l = Ok bs -> bs = map h l.
Proof.
  induction l as [|a l IH]; intros bs H E; cbn [mapM] in E; [injection E as <-; reflexivity|].
  apply bind_ok in E as [b [E1 E]]. apply bind_ok in E as [bs' [E2 E]]. injection E as <-. cbn [map]. f_equal.
  - apply H; [left; reflexivity|assumption].
  - apply IH; [|assumption]. intros a' b' Ha. apply H. right. assumption.
Qed.

Section Drawing.
  Variables (topo : graph -> res (list vid)) (weight_text : Q -> str).

  Lemma draw_shows : forall simple g r d, NoDup (vertices g) -> ranking_of topo g = Ok r ->
    (forall e, In e (g_edges g) -> In (fst (fst e)) (vertices g)) -> (forall e, In e (g_near g) -> In (fst (fst e)) (vertices g)) ->
    draw topo weight_text simple g = Ok d -> exists name, shows weight_text simple g r name d.
  Proof.
    intros simple g r d ND R GE GN H. unfold draw in H. rewrite R in H. cbn [bind] in H. apply bind_ok in H as [[[k m] nodes] [H1 H]].
    apply bind_ok in H as [es [H2 H]]. apply bind_ok in H as [ns [H3 H]]. apply bind_ok in H as [grs [H4 H]]. injection H as <-.
    destruct (nodes_fold simple r _ _ H1 ND) as [C K B I F]. cbn [fst snd] in *.
    set (name := fun v => match dget Nat.eqb v m with Some s => s | None => [] end). exists name.
    assert (NM : forall v s, dgetE Nat.eqb v m = Ok s -> s = name v) by (intros v s E; apply dgetE_ok in E; unfold name; rewrite E; reflexivity).
    constructor.
    - intros u v Hu Hv E. assert (Ku : In u (map fst m)) by (rewrite K; exact Hu). assert (Kv : In v (map fst m)) by (rewrite K; exact Hv).
      destruct (dget_Some_key _ nat_eqb_ok u m Ku) as [s Du]. destruct (dget_Some_key _ nat_eqb_ok v m Kv) as [s' Dv].
      unfold name in E. rewrite Du, Dv in E. subst s'. apply (I u v s Du Dv).
    - cbn [dr_nodes]. clear - F. induction F as [|x n l ns [E1 E2] F IH]; constructor; auto. split; [|assumption]. unfold name. rewrite E1. reflexivity.
    - cbn [dr_edges]. assert (DE : forall {A} dashed (text : A -> str) e b, draw_edge dashed text m e = Ok b ->
        b = {| de_from := name (fst (fst e)); de_to := name (snd (fst e)); de_dashed := dashed; de_label := text (snd e) |}).
      { intros A dashed text [[u v] x] b E. unfold draw_edge in E. apply bind_ok in E as [a [E1 E]]. apply bind_ok in E as [b' [E2 E]]. injection E as <-.
        rewrite (NM u a E1), (NM v b' E2). reflexivity. }
      apply Permutation_app.
      + rewrite (mapM_map _ _ _ _ (fun e b _ => DE _ _ _ e b) H2). apply Permutation_map. apply partition_edges; assumption.
      + rewrite (mapM_map _ _ _ _ (fun e b _ => DE _ _ _ e b) H3). apply Permutation_map. apply partition_edges; assumption.
    - cbn [dr_groups]. assert (DG : forall kv b, mapM (fun v => dgetE Nat.eqb v m) (@snd nat (list nat) kv) = Ok b -> b = map name (snd kv)) by (intros kv b E; apply (mapM_map _ _ _ _ (fun v s _ => NM v s) E)).
      apply (mapM_map _ _ _ _ (fun kv b _ => DG kv b) H4).
  Qed.

  Lemma draw_total : forall simple g r, NoDup (vertices g) -> ranking_of topo g = Ok r -> ranks_in (vertices g) r ->
    (forall e, In e (g_edges g) -> In (fst (fst e)) (vertices g) /\ In (snd (fst e)) (vertices g)) ->
    (forall e, In e (g_near g) -> In (fst (fst e)) (vertices g) /\ In (snd (fst e)) (vertices g)) ->
    (simple = false -> forall v vx, In (v, vx) (g_verts g) -> (exists k, dget Nat.eqb v (by_vertex r) = Some k) /\
      forall sg ts tk, In (sg, ts) (v_tokens vx) -> In tk ts -> exists s, dget str_eqb (lit "t") (tk_data tk) = Some (JStr s)) ->
    exists d, draw topo weight_text simple g = Ok d.
  Proof.
    intros simple g r ND R RI GE GN HT. unfold draw. rewrite R. cbn [bind].
    destruct (nodes_total simple r (g_verts g) (0, [], [])) as [[[k m] nodes] H1].
    { intros E [v vx] Hx. apply (HT E v vx Hx). }
    rewrite H1. cbn [bind]. destruct (nodes_fold simple r _ _ H1 ND) as [_ K _ _ _]. cbn [fst snd] in K.
    assert (MK : forall v, In v (vertices g) -> exists s, dgetE Nat.eqb v m = Ok s).
    { intros v Hv. assert (Kv : In v (map fst m)) by (rewrite K; exact Hv). destruct (dget_Some_key _ nat_eqb_ok v m Kv) as [s D]. exists s. apply dgetE_ok. assumption. }
    assert (EE : forall {A} b (text : A -> str) es, (forall e, In e es -> In (fst (fst e)) (vertices g) /\ In (snd (fst e)) (vertices g)) -> exists l, mapM (draw_edge b text m) es = Ok l).
    { intros A b text es He. apply mapM_total. intros [[u v] x] Hx. destruct (He _ Hx) as [A1 A2]. cbn [fst snd] in *. unfold draw_edge.
      destruct (MK u A1) as [su ->]. destruct (MK v A2) as [sv ->]. cbn [bind]. eauto. }
    destruct (EE _ false (fun s => s) (edges_data g)) as [es ->].
    { intros e He. apply in_flat_map in He as [u [_ He]]. apply filter_In in He as [He _]. apply GE. assumption. }
    cbn [bind]. destruct (EE _ true weight_text (near_edges_data g)) as [ns ->].
    { intros e He. apply in_flat_map in He as [u [_ He]]. apply filter_In in He as [He _]. apply GN. assumption. }
    cbn [bind]. destruct (mapM_total (fun kv => mapM (fun v => dgetE Nat.eqb v m) (snd kv)) (by_rank r)) as [gr ->]; [|cbn [bind]; eauto].
    intros [k' vs] Hk. apply mapM_total. intros v Hv. apply MK. apply (RI k' vs Hk). assumption.
  Qed.
End Drawing.

(** ** The drawing of a collation *)
Section CollateDrawing.
  Variables (cc : cclass) (topo : graph -> res (list vid)) (ratio : str -> str -> Q) (weight_text : Q -> str).
  Hypothesis TO : topo_ok topo.

  Lemma collate_ranking : forall c o g r, collate_graph cc topo ratio c o = Ok (g, r) -> ranking_of topo g = Ok r.
  Proof.
    intros c o g r H. unfold collate_graph in H. apply bind_ok in H as [[ti g1] [_ H]]. apply bind_ok in H as [r1 [R1 H]]. apply bind_ok in H as [[g2 r2] [H2 H]].
    destruct (o_segmentation o).
    - apply bind_ok in H as [g' [_ H]]. apply bind_ok in H as [r' [R H]]. injection H as <- <-. assumption.
    - injection H as <- <-. destruct (o_near o); [|injection H2 as <- <-; assumption]. unfold perform_near_match in H2.
      apply bind_ok in H2 as [ord [_ H2]]. apply bind_ok in H2 as [[g3 r3] [_ H2]]. apply bind_ok in H2 as [r4 [R H2]]. injection H2 as <- <-. assumption.
  Qed.

  Lemma placed_result : forall c o g r, good_sigla c -> collate_graph cc topo ratio c o = Ok (g, r) ->
    exists W rk m l, Forall2 carries c W /\ graph_of (without_near g) W /\ W <> [] /\ rank_ok (without_near g) rk m l /\ placed (without_near g) rk m r /\
      forall e, In e (g_near g) -> In (fst (fst e)) (vertices g) /\ In (snd (fst e)) (vertices g).
  Proof.
    intros c o g r [ND NE] H. destruct (o_near o) eqn:Hn.
    - unfold collate_graph in H. apply bind_ok in H as [[ti g1] [A H]]. destruct (o_astar o); [discriminate|].
      apply bind_ok in H as [r1 [R H]]. apply bind_ok in H as [[g2 r2] [N H]]. rewrite Hn in N. destruct (o_segmentation o); [discriminate|]. injection H as <- <-.
      destruct (aligner_spec _ _ _ _ _ _ TO ND NE A) as [_ [_ [st' [W0 [E [AL [NW CA]]]]]]].
      pose proof (al_graph _ _ _ _ _ AL) as GI. rewrite E in GI.
      destruct (ranking_spec topo g1 W0 TO GI) as [rk [m [l [_ [R1 R2]]]]]. rewrite R1 in R. injection R as <-.
      destruct (near_match_total g1 W0 rk m l GI NW R2 topo ratio TO) as [g3 [r3 [X1 [[X2 X4] X3]]]]. rewrite X1 in N. injection N as <- <-.
      exists W0, rk, m, l. rewrite X2. do 5 (split; [assumption|]). intros [[u v] q] He. destruct (X4 u v q He) as [Q1 [_ [Q2 _]]]. cbn [fst snd].
      change (vertices g3) with (vertices (without_near g3)). rewrite X2. auto.
    - destruct (result_spec cc topo ratio TO c o g r ND NE H) as [ti [st [W0 [W [part RS]]]]].
      pose proof (jo_graph _ _ _ _ _ _ (rs_joined _ _ _ _ _ _ _ _ _ _ _ RS)) as GI. pose proof (rs_carries _ _ _ _ _ _ _ _ _ _ _ RS) as CA.
      destruct (rs_near _ _ _ _ _ _ _ _ _ _ _ RS Hn) as [N0 [rk [m [l [RO E]]]]]. subst r.
      assert (NN : without_near g = g) by (destruct g; cbn in N0; subst; reflexivity). rewrite NN in *.
      assert (NW : W <> []) by (apply (carries_nonempty c); [|assumption]; apply (collate_nonempty cc topo ratio c o g _ H)).
      exists W, rk, m, l. do 4 (split; [assumption|]). split; [apply (base_placed g W rk m l GI NW RO rk m l RO)|]. rewrite N0. intros e [].
  Qed.

  Lemma drawing_inv : forall c o d, collate_drawing topo weight_text cc ratio c o = Ok d ->
    exists (simple : bool) g r, collate_graph cc topo ratio c o = Ok (g, r) /\ o_output o = (if simple then lit "svg_simple" else lit "svg") /\ draw topo weight_text simple g = Ok d.
  Proof.
    intros c o d H. unfold collate_drawing in H. apply bind_ok in H as [x [H1 H]]. destruct x as [simple g| | | | | | | |]; try discriminate.
    destruct (collate_inv cc topo ratio c o _ H1) as [g' [r [H2 [H3 H4]]]]. cbn [made_from] in H4. subst g'. exists simple, g, r.
    split; [assumption|]. split; [|assumption]. cbn [representation_ok] in H3. destruct simple; assumption.
  Qed.

  Lemma edge_ends : forall g W, graph_of (without_near g) W -> forall e, In e (g_edges g) -> In (fst (fst e)) (vertices g) /\ In (snd (fst e)) (vertices g).
  Proof.
    intros g W GI [[u v] lb] He. cbn [fst snd]. apply (graph_edge_verts (without_near g) W u v GI). apply (in_map fst) in He. exact He.
  Qed.

  Theorem drawing_shows : forall c o d, good_sigla c -> collate_drawing topo weight_text cc ratio c o = Ok d ->
    exists (simple : bool) g r name W rk m l, collate_graph cc topo ratio c o = Ok (g, r) /\ o_output o = (if simple then lit "svg_simple" else lit "svg") /\
      ranking_of topo g = Ok r /\ shows weight_text simple g r name d /\
      Forall2 carries c W /\ graph_of (without_near g) W /\ W <> [] /\ rank_ok (without_near g) rk m l /\ placed (without_near g) rk m r.
  Proof.
    intros c o d G H. destruct (drawing_inv c o d H) as [simple [g [r [H1 [H2 H3]]]]]. pose proof (collate_ranking c o g r H1) as R.
    destruct (placed_result c o g r G H1) as [W [rk [m [l [CA [GI [NW [RO [P NG]]]]]]]]].
    destruct (draw_shows topo weight_text simple g r d (gi_verts _ _ GI) R) as [name S]; auto.
    - intros e He. apply (edge_ends g W GI e He).
    - intros e He. apply (NG e He).
    - exists simple, g, r, name, W, rk, m, l. do 8 (split; [assumption|]). assumption.
  Qed.

  Theorem drawing_total : forall c o g r, good_sigla c -> collate_graph cc topo ratio c o = Ok (g, r) ->
    o_output o = lit "svg_simple" \/ (o_output o = lit "svg" /\ has_texts c) -> exists d, collate_drawing topo weight_text cc ratio c o = Ok d.
  Proof.
    intros c o g r G H1 HO. pose proof (collate_ranking c o g r H1) as R. destruct (placed_result c o g r G H1) as [W [rk [m [l [CA [GI [NW [RO [P NG]]]]]]]]].
    assert (X : forall simple, (simple = false -> has_texts c) -> exists d, draw topo weight_text simple g = Ok d).
    { intros simple HT. apply (draw_total topo weight_text simple g r (gi_verts _ _ GI) R); auto.
      - apply (ranks_in_of topo g W); auto.
      - intros e He. apply (edge_ends g W GI e He).
      - intros ES v vx Hv. assert (D : dget Nat.eqb v (g_verts g) = Some vx) by (apply (In_dget _ nat_eqb_ok); [apply (gi_verts _ _ GI)|assumption]). split.
        + apply (pd_verts _ _ _ _ P). apply (in_map fst) in Hv. exact Hv.
        + intros sg ts tk Hi Ht. rewrite (gi_tokens _ _ GI v vx D) in Hi. apply tokens_on_In in Hi as [p [P1 [P2 P3]]]. apply (dget_In _ nat_eqb_ok) in P3.
          destruct (carries_token c W p v ts tk CA P1 P3 Ht) as [w [t0 [A1 [A2 [A3 A4]]]]]. destruct (HT ES w t0 A1 A3) as [s Ds].
          exists s. rewrite (came_from_text _ _ _ _ A4) by (apply lit_neq; reflexivity). exact Ds. }
    unfold collate_drawing, collate. rewrite H1. cbn [bind]. unfold render. destruct HO as [-> |[-> HT]].
    - cbn [str_eqb lit bind]. apply X. discriminate.
    - cbn [str_eqb lit bind]. apply X. intros _. assumption.
  Qed.

  (** A witness in the drawing. *)
  Lemma node_of : forall simple g r name d v, shows weight_text simple g r name d -> In v (vertices g) ->
    exists vx n, In (v, vx) (g_verts g) /\ In n (dr_nodes d) /\ dn_id n = name v /\ label_ok simple r v vx (dn_label n).
  Proof.
    intros simple g r name d v S Hv. pose proof (sh_nodes _ _ _ _ _ _ S) as F. unfold vertices in Hv. revert Hv. induction F as [|x n l ns [E1 E2] F IH]; intros Hv; [contradiction|].
    destruct Hv as [<-|Hv].
    - exists (snd x), n. split; [left; apply surjective_pairing|]. split; [left; reflexivity|]. auto.
    - destruct (IH Hv) as [vx [n' [A [B C]]]]. exists vx, n'. split; [right; assumption|]. split; [right; assumption|assumption].
  Qed.

  Definition drawn_as (g : graph) (r : ranking) (name : vid -> str) (d : drawing) (v : vid) (n : dot_node) : Prop :=
    In n (dr_nodes d) /\ dn_id n = name v /\ exists vx, dget Nat.eqb v (g_verts g) = Some vx /\ label_ok false r v vx (dn_label n).

  Lemma nodes_of : forall g r name d vs, NoDup (vertices g) -> shows weight_text false g r name d -> incl vs (vertices g) ->
    exists ns, Forall2 (drawn_as g r name d) vs ns.
  Proof.
    intros g r name d vs ND S. induction vs as [|v vs IH]; intros I; [exists []; constructor|].
    destruct IH as [ns F]; [intros x Hx; apply I; right; assumption|]. destruct (node_of _ _ _ _ _ v S (I v (or_introl eq_refl))) as [vx [n [A [B [C D]]]]].
    exists (n :: ns). constructor; [|assumption]. split; [assumption|]. split; [assumption|]. exists vx. split; [|assumption]. apply (In_dget _ nat_eqb_ok); assumption.
  Qed.

  Lemma Forall2_pairs : forall {A B} (P : A -> B -> Prop) l l' b b', Forall2 P l l' -> In (b, b') (pairs l') -> exists a a', In (a, a') (pairs l) /\ P a b /\ P a' b'.
  Proof.
    intros A B P l l' b b' F H. unfold pairs in *. induction F as [|x y l l' E F IH]; [contradiction|]. destruct F as [|x2 y2 l l' E2 F]; [contradiction|].
    cbn [tl combine] in *. destruct H as [H|H].
    - injection H as <- <-. exists x, x2. split; [left; reflexivity|]. auto.
    - destruct (IH H) as [a [a' [Q1 Q2]]]. exists a, a'. split; [right; assumption|assumption].
  Qed.

  Lemma listed_reading : forall (W : list wpath) v sg ts lines, NoDup (map fst (tokens_on W v)) -> In (sg, ts) (tokens_on W v) -> lines_ok (tokens_on W v) lines ->
    exists s sgs, text_of ts s /\ In (without_tags s, sgs) lines /\ In sg sgs.
  Proof.
    intros W v sg ts lines ND Hi [L1 [L2 [L3 L4]]]. assert (Hs : In sg (flat_map snd lines)) by (apply (Permutation_in _ (Permutation_sym L2)); apply (in_map fst) in Hi; exact Hi).
    apply in_flat_map in Hs as [[reading sgs] [Q1 Q2]]. cbn [snd] in Q2. destruct (proj1 (L4 sg reading)) as [ts' [s [T1 [T2 T3]]]]; [exists sgs; auto|].
    assert (ts' = ts).
    { pose proof (In_dget _ str_eqb_ok _ _ _ ND Hi) as D1. pose proof (In_dget _ str_eqb_ok _ _ _ ND T1) as D2. congruence. }
    subst ts' reading. exists s, sgs. auto.
  Qed.

  Theorem drawing_witness : forall c o d w, good_sigla c -> o_output o = lit "svg" -> collate_drawing topo weight_text cc ratio c o = Ok d -> In w c ->
    exists a ns b readings texts, incl (a :: ns ++ [b]) (dr_nodes d) /\
      (exists k, dn_label a = node_label (lit "start") k []) /\ (exists k, dn_label b = node_label (lit "end") k []) /\
      (forall x y, In (x, y) (pairs (a :: ns ++ [b])) -> exists sgs, In (w_sigil w) sgs /\
         In {| de_from := dn_id x; de_to := dn_id y; de_dashed := false; de_label := str_join (lit ", ") sgs |} (dr_edges d)) /\
      Forall2 (fun n t => exists heading k lines sgs, dn_label n = node_label heading k lines /\ In (t, sgs) lines /\ In (w_sigil w) sgs) ns readings /\
      Forall2 (fun t0 s => dget str_eqb (lit "t") (t0_data t0) = Some (JStr s)) (w_toks w) texts /\ concat readings = without_tags (concat texts).
  Proof.
    intros c o d w G HO H Hw. destruct (drawing_shows c o d G H) as [simple [g [r [name [W [rk [m [l [H1 [H2 [R [S [CA [GI [NW [RO P]]]]]]]]]]]]]]]].
    rewrite HO in H2. destruct simple; [discriminate H2|]. clear H2.
    assert (X : exists p, In p W /\ carries w p).
    { clear - CA Hw. induction CA as [|w' p c W E F IH]; [contradiction|]. destruct Hw as [<-|Hw]; [exists p; split; [left; reflexivity|assumption]|].
      destruct (IH Hw) as [q [A B]]. exists q. split; [right; assumption|assumption]. }
    destruct X as [p [Hp [C1 C2]]].
    assert (VS : incl (map fst (snd p)) (vertices g)).
    { intros v Hv. apply in_map_iff in Hv as [[v' ts] [<- Hv]]. apply (gi_on _ _ GI p v' ts Hp Hv). }
    assert (VA : forall v, v = v_start \/ v = v_end -> In v (vertices g)).
    { intros v [-> | ->]; [apply (start_In (without_near g) W GI)|apply (end_In (without_near g) W GI)]. }
    destruct (nodes_of g r name d [v_start] (gi_verts _ _ GI) S) as [na FA]; [intros x [<-|[]]; apply VA; auto|].
    destruct (nodes_of g r name d [v_end] (gi_verts _ _ GI) S) as [nb FB]; [intros x [<-|[]]; apply VA; auto|].
    destruct (nodes_of g r name d (map fst (snd p)) (gi_verts _ _ GI) S VS) as [ns FN].
    inversion FA as [|? a ? ? DA FA']; subst. inversion FA'; subst. inversion FB as [|? b ? ? DB FB']; subst. inversion FB'; subst. clear FA' FB' FA FB.
    exists a, ns, b.
    assert (FF : Forall2 (drawn_as g r name d) (chain p) (a :: ns ++ [b])).
    { unfold chain. constructor; [assumption|]. apply Forall2_app; [assumption|]. constructor; [assumption|constructor]. }
    assert (NL : forall v n lb, drawn_as g r name d v n -> (v = v_start \/ v = v_end) -> dget Nat.eqb v (g_verts (without_near g)) = Some {| v_label := lb; v_tokens := [] |} -> exists k, dn_label n = node_label lb k []).
    { intros v n lb [_ [_ [vx [D LO]]]] _ D'. cbn [without_near g_verts] in D'. rewrite D in D'. injection D' as ->. destruct LO as [k [lines [_ [L1 [_ [_ [L3 L4]]]]]]]. exists k. cbn [v_label v_tokens] in *.
      destruct lines as [|[reading sgs] lines]; [assumption|]. exfalso. pose proof (L3 reading sgs (or_introl eq_refl)) as NS. destruct sgs as [|sg sgs]; [congruence|].
      destruct (proj1 (L4 sg reading)) as [ts [s [[] _]]]. exists (sg :: sgs). split; left; reflexivity. }
    assert (RR : exists readings texts, Forall2 (fun n t => exists heading k lines sgs, dn_label n = node_label heading k lines /\ In (t, sgs) lines /\ In (w_sigil w) sgs) ns readings /\
      Forall2 (fun tk s => dget str_eqb (lit "t") (tk_data tk) = Some (JStr s)) (flat_map snd (snd p)) texts /\ concat readings = without_tags (concat texts)).
    { assert (IN : incl (snd p) (snd p)) by apply incl_refl. revert ns FN IN FF VS. generalize (snd p) at 1 2 4 5 as steps. intros steps. clear C2.
      assert (Q : forall steps ns, Forall2 (drawn_as g r name d) (map fst steps) ns -> incl steps (snd p) -> exists readings texts, Forall2 (fun n t => exists heading k lines sgs, dn_label n = node_label heading k lines /\ In (t, sgs) lines /\ In (w_sigil w) sgs) ns readings /\
        Forall2 (fun tk s => dget str_eqb (lit "t") (tk_data tk) = Some (JStr s)) (flat_map snd steps) texts /\ concat readings = without_tags (concat texts)).
      { induction steps0 as [|[v ts] st IH]; intros ns FN I; cbn [map fst] in FN; inversion FN as [|? n ? ns' DN FN']; subst.
        - exists [], []. split; [constructor|]. split; [constructor|reflexivity].
        - destruct (IH ns' FN') as [rs [txs [A1 [A2 A3]]]]; [intros x Hx; apply I; right; assumption|]. destruct DN as [_ [_ [vx [D [k [lines [_ [L1 L2]]]]]]]].
          rewrite (gi_tokens _ _ GI v vx D) in L2.
          assert (Hi : In (w_sigil w, ts) (tokens_on W v)).
          { apply tokens_on_In. exists p. split; [assumption|]. split; [assumption|]. apply (In_dget _ nat_eqb_ok); [|apply I; left; reflexivity].
            pose proof (gi_simple _ _ GI p Hp) as NC. unfold chain in NC. inversion NC as [|? ? _ NC']; subst. apply NoDup_app_iff in NC' as [NC' _]. assumption. }
          destruct (listed_reading W v (w_sigil w) ts lines (tokens_on_NoDup (without_near g) W GI v) Hi L2) as [s [sgs [[tx [T1 T2]] [T3 T4]]]].
          exists (without_tags s :: rs), (tx ++ txs). split; [constructor; [exists (v_label vx), k, lines, sgs; auto|assumption]|]. split.
          + cbn [flat_map snd]. apply Forall2_app; assumption.
          + cbn [concat]. rewrite A3, concat_app, tags_app, T2. reflexivity. }
      intros ns FN IN _ _. exact (Q steps ns FN IN). }
    destruct RR as [readings [texts [R1 [R2 R3]]]]. exists readings, texts. split; [|split; [|split; [|split; [|split; [|split]]]]].
    - clear - FF. remember (a :: ns ++ [b]) as L. clear HeqL. induction FF as [|v n vs nn E F IH]; intros x Hx; [contradiction|]. destruct Hx as [<-|Hx]; [apply E|apply IH; assumption].
    - apply (NL v_start a _ DA (or_introl eq_refl) (gi_start _ _ GI)).
    - apply (NL v_end b _ DB (or_intror eq_refl) (gi_end _ _ GI)).
    - intros x y Hxy. destruct (Forall2_pairs _ _ _ _ _ FF Hxy) as [u [v [Huv [[_ [Eu _]] [_ [Ev _]]]]]].
      exists (users W (u, v)). assert (U : In (w_sigil w) (users W (u, v))).
      { unfold users. apply in_map_iff. exists p. split; [assumption|]. apply filter_In. split; [assumption|]. apply (existsb_eqb _ edge_eqb_ok). assumption. }
      split; [assumption|]. pose proof (gi_edges _ _ GI (u, v)) as GE. destruct (users W (u, v)) as [|u0 us] eqn:EU; [contradiction|].
      apply (dget_In _ edge_eqb_ok) in GE. apply (Permutation_in _ (Permutation_sym (sh_edges _ _ _ _ _ _ S))). apply in_or_app. left. rewrite Eu, Ev.
      apply in_map_iff. exists ((u, v), str_join (lit ", ") (u0 :: us)). split; [reflexivity|exact GE].
    - assumption.
    - clear - C2 R2. revert texts R2. induction C2 as [|t0 tk ts0 tks E F IH]; intros texts R2; inversion R2; subst; constructor; auto.
      rewrite <- (came_from_text _ _ _ _ E) by (apply lit_neq; reflexivity). assumption.
    - assumption.
  Qed.

  (** The columns of the table are the groups of the drawing. *)
  Theorem drawing_columns : forall c o d t, good_sigla c -> o_output o = lit "svg" -> collate_drawing topo weight_text cc ratio c o = Ok d ->
    collate cc topo ratio c (set_output o (lit "table")) = Ok (OTable t) ->
    length (dr_groups d) = S (S (length (t_columns t))) /\ Permutation (concat (dr_groups d)) (map dn_id (dr_nodes d)) /\ NoDup (map dn_id (dr_nodes d)) /\
    forall i col sg ts, nth_error (t_columns t) i = Some col -> In (sg, ts) (c_cells col) ->
      exists grp n heading lines sgs s, nth_error (dr_groups d) (S i) = Some grp /\ In n (dr_nodes d) /\ In (dn_id n) grp /\
        dn_label n = node_label heading (S i) lines /\ In (without_tags s, sgs) lines /\ In sg sgs /\ text_of ts s.
  Proof.
    intros c o d t G HO H HT. destruct (drawing_shows c o d G H) as [simple [g [r [name [W [rk [m [l [H1 [H2 [R [SH [CA [GI [NW [RO P]]]]]]]]]]]]]]]].
    rewrite HO in H2. destruct simple; [discriminate H2|]. clear H2.
    destruct (collate_table_inv cc topo ratio c _ t HT) as [g' [r' [H1' H3]]]. rewrite collate_graph_output, H1 in H1'. injection H1' as <- <-.
    assert (RI : ranks_in (vertices g) r) by (apply (ranks_in_of topo g W); auto).
    rewrite (table_weak g W GI _ _ RI) in H3. injection H3 as <-.
    destruct (placed_ranks _ W rk m l r GI NW RO P) as [PK M2].
    pose proof (pd_keys _ _ _ _ P) as K. pose proof (sh_groups _ _ _ _ _ _ SH) as SG.
    assert (KN : NoDup (map fst (by_rank r))) by (rewrite K; apply seq_NoDup).
    assert (NI : map dn_id (dr_nodes d) = map name (vertices g)).
    { pose proof (sh_nodes _ _ _ _ _ _ SH) as F. unfold vertices. clear - F. induction F as [|x n xs ns [E _] F IH]; [reflexivity|]. cbn [map]. rewrite E, IH. reflexivity. }
    assert (NN : forall vs, incl vs (vertices g) -> NoDup vs -> NoDup (map name vs)).
    { intros vs. induction vs as [|v vs IH]; intros I N; cbn [map]; [constructor|]. inversion N as [|? ? N1 N2]; subst. constructor.
      - intros Hi. apply in_map_iff in Hi as [u [E Hu]]. apply N1. rewrite <- (sh_distinct _ _ _ _ _ _ SH u v); auto; [apply I; right; assumption|apply I; left; reflexivity].
      - apply IH; [intros x Hx; apply I; right; assumption|assumption]. }
    assert (PV : Permutation (concat (map snd (by_rank r))) (vertices g)).
    { apply NoDup_Permutation; [|apply (gi_verts _ _ GI)|].
      - assert (Q : forall L, incl L (by_rank r) -> NoDup (map fst L) -> NoDup (concat (map snd L))).
        { induction L as [|[k vs] L IH]; intros I N; cbn [map concat snd]; [constructor|]. cbn [map fst] in N. inversion N as [|? ? N1 N2]; subst.
          assert (D : dget Nat.eqb k (by_rank r) = Some vs) by (apply (In_dget _ nat_eqb_ok); [assumption|apply I; left; reflexivity]). destruct (pd_lists _ _ _ _ P k vs D) as [Q1 Q2].
          apply NoDup_app_iff. split; [assumption|]. split; [apply IH; [intros x Hx; apply I; right; assumption|assumption]|]. intros v Hv Hc.
          apply in_concat in Hc as [vs' [V1 V2]]. apply in_map_iff in V1 as [[k' vs2] [E V1]]. cbn [snd] in E. subst vs2.
          assert (D' : dget Nat.eqb k' (by_rank r) = Some vs') by (apply (In_dget _ nat_eqb_ok); [assumption|apply I; right; assumption]).
          destruct (pd_lists _ _ _ _ P k' vs' D') as [_ Q3]. pose proof (Q2 v Hv) as E1. pose proof (Q3 v V2) as E2. assert (k = k') by congruence. subst k'.
          apply N1. apply (in_map fst) in V1. exact V1. }
        apply Q; [apply incl_refl|assumption].
      - intros v. split.
        + intros Hv. apply in_concat in Hv as [vs [V1 V2]]. apply in_map_iff in V1 as [[k vs'] [E V1]]. cbn [snd] in E. subst vs'. apply (RI k vs V1 v V2).
        + intros Hv. destruct (pd_verts _ _ _ _ P v Hv) as [k D]. destruct (pd_at _ _ _ _ P v k D) as [_ [vs [D2 I2]]]. apply in_concat. exists vs. split; [|assumption].
          apply in_map_iff. exists (k, vs). split; [reflexivity|]. apply (dget_In _ nat_eqb_ok). assumption. }
    split; [|split; [|split]].
    - rewrite SG, map_length. cbn [t_columns wtable]. rewrite map_length. rewrite <- (map_length fst (by_rank r)), K, seq_length.
      rewrite <- (map_length fst (filter _ _)), PK, seq_length. lia.
    - rewrite NI, <- PV, SG. rewrite concat_map, map_map. reflexivity.
    - rewrite NI. apply NN; [apply incl_refl|apply (gi_verts _ _ GI)].
    - intros i col sg ts Hc Hi. cbn [t_columns wtable] in Hc.
      destruct (nth_error (filter (fun kv => existsb inner (snd kv)) (by_rank r)) i) as [[k vs]|] eqn:E; [|exfalso; apply nth_error_None in E; assert (X : i < length (map (fun kv => wcol W (length (map w_sigil c)) (snd kv)) (filter (fun kv => existsb inner (snd kv)) (by_rank r)))) by (apply nth_error_Some; rewrite Hc; discriminate); rewrite map_length in X; lia].
      rewrite (map_nth_error _ _ _ E) in Hc. injection Hc as <-. cbn [snd c_cells wcol] in Hi. apply wcells_In in Hi as [v [p [V1 [V2 [V3 V4]]]]].
      assert (EK : k = S i).
      { pose proof (map_nth_error fst _ _ E) as X. rewrite PK in X. cbn [fst] in X. pose proof (nth_error_nth _ _ 0 X) as Y. assert (L : i < m - 2).
        { rewrite <- (seq_length (m - 2) 1). apply nth_error_Some. rewrite X. discriminate. }
        rewrite seq_nth in Y by assumption. lia. }
      subst k. pose proof (nth_error_In _ _ E) as IE. apply filter_In in IE as [IE _].
      assert (NG : nth_error (by_rank r) (S i) = Some (S i, vs)).
      { destruct (In_nth_error _ _ IE) as [j J]. pose proof (map_nth_error fst _ _ J) as X. rewrite K in X. cbn [fst] in X. pose proof (nth_error_nth _ _ 0 X) as Y. assert (L : j < m).
        { rewrite <- (seq_length m 0). apply nth_error_Some. rewrite X. discriminate. }
        rewrite seq_nth in Y by assumption. replace (S i) with j by lia. rewrite J. f_equal. f_equal. lia. }
      destruct (nodes_of g r name d [v] (gi_verts _ _ GI) SH) as [nv FV]; [intros x [<-|[]]; apply (RI (S i) vs IE); assumption|].
      inversion FV as [|? n ? ? [N1 [N2 [vx [D [k [lines [RK [L1 L2]]]]]]]] _]; subst. rewrite (gi_tokens _ _ GI v vx D) in L2.
      assert (Hk : k = S i).
      { assert (D' : dget Nat.eqb (S i) (by_rank r) = Some vs) by (apply (In_dget _ nat_eqb_ok); assumption). destruct (pd_lists _ _ _ _ P _ vs D') as [_ Q]. pose proof (Q v V1) as Y. unfold rank_at in RK. congruence. }
      subst k.
      assert (Ht : In (fst p, ts) (tokens_on W v)).
      { apply tokens_on_In. exists p. split; [assumption|]. split; [reflexivity|]. apply (In_dget _ nat_eqb_ok); [|assumption].
        pose proof (gi_simple _ _ GI p V2) as NC. unfold chain in NC. inversion NC as [|? ? _ NC']; subst. apply NoDup_app_iff in NC' as [NC' _]. assumption. }
      destruct (listed_reading W v (fst p) ts lines (tokens_on_NoDup (without_near g) W GI v) Ht L2) as [s [sgs [T1 [T3 T4]]]].
      exists (map name vs), n, (v_label vx), lines, sgs, s. split; [rewrite SG; apply (map_nth_error (fun kv => map name (snd kv)) _ _ NG)|]. split; [assumption|].
      split; [rewrite N2; apply in_map; assumption|]. auto.
  Qed.
End CollateDrawing.
