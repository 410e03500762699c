(** The invariant [graph_of] is preserved by merge. *)
From Verif Require Import Py Lib TokenModel SuffixModel IndexModel GraphModel GraphSpec GraphProof.
From Coq Require Import Relations.

(** The steps of a witness whose tokens stand on the vertices of [path]. *)
Definition steps (ts : list token) (path : list vid) : list (vid * list token) :=
  combine path (map (fun t => [t]) ts).

Lemma map_fst_combine : forall {A B} (l1 : list A) (l2 : list B),
  length l1 = length l2 -> map fst (combine l1 l2) = l1.
Proof. induction l1; destruct l2; simpl; intros; try discriminate; auto. f_equal. auto. Qed.
Lemma map_snd_combine : forall {A B} (l1 : list A) (l2 : list B),
  length l1 = length l2 -> map snd (combine l1 l2) = l2.
Proof. induction l1; destruct l2; simpl; intros; try discriminate; auto. f_equal. auto. Qed.

Lemma steps_fst : forall ts path, length path = length ts -> map fst (steps ts path) = path.
Proof. intros. unfold steps. apply map_fst_combine. rewrite map_length. assumption. Qed.

Lemma steps_get : forall ts path v, length path = length ts ->
  dget Nat.eqb v (steps ts path) =
  match dget Nat.eqb v (map (fun tv => (snd tv, fst tv)) (combine ts path)) with
  | Some t => Some [t] | None => None end.
Proof.
  unfold steps. induction ts; destruct path; simpl; intros; try discriminate; auto.
  destruct (_ =? _); [reflexivity|]. apply IHts. lia.
Qed.

Lemma tokens_on_app : forall W1 W2 v, tokens_on (W1 ++ W2) v = tokens_on W1 v ++ tokens_on W2 v.
Proof. intros. unfold tokens_on. apply flat_map_app. Qed.

Lemma tokens_on_In : forall W v sg ts, In (sg, ts) (tokens_on W v) <->
  exists p : wpath, In p W /\ fst p = sg /\ dget Nat.eqb v (snd p) = Some ts.
Proof.
  intros. unfold tokens_on. rewrite in_flat_map. split.
  - intros [p [H1 H2]]. exists p. destruct (dget Nat.eqb v (snd p)) eqn:E; [|contradiction].
    destruct H2 as [H2|[]]. injection H2 as <- <-. auto.
  - intros [p [H1 [H2 H3]]]. exists p. split; auto. rewrite H3. left. congruence.
Qed.

Lemma tokens_on_sigla : forall W v sg, In sg (map fst (tokens_on W v)) -> In sg (map fst W).
Proof.
  intros. apply in_map_iff in H as [[sg' ts] [<- H]]. apply tokens_on_In in H as [p [H1 [H2 _]]].
  simpl. subst. apply in_map. assumption.
Qed.

Lemma users_app : forall W1 W2 e, users (W1 ++ W2) e = users W1 e ++ users W2 e.
Proof. intros. unfold users. rewrite filter_app, map_app. reflexivity. Qed.

Lemma users_In : forall W e sg, In sg (users W e) <-> exists p, In p W /\ fst p = sg /\ In e (pairs (chain p)).
Proof.
  intros. unfold users. rewrite in_map_iff. split.
  - intros [p [H1 H2]]. apply filter_In in H2 as [H2 H3].
    apply (existsb_eqb _ edge_eqb_ok) in H3. eauto.
  - intros [p [H1 [H2 H3]]]. exists p. split; auto. apply filter_In. split; auto.
    apply (existsb_eqb _ edge_eqb_ok). assumption.
Qed.

(** A potential that grows along the edges excludes cycles. *)
Lemma potential_acyclic : forall g (f : vid -> nat),
  (forall u v, edge g u v -> f u < f v) -> acyclic g.
Proof.
  intros g f H v C. assert (G : forall a b, clos_trans vid (edge g) a b -> f a < f b).
  { induction 1; auto. lia. }
  apply G in C. lia.
Qed.

Lemma graph_edge_users : forall g W u v, graph_of g W -> (edge g u v <-> users W (u, v) <> []).
Proof.
  intros g W u v GI. unfold edge, edge_pairs. pose proof (gi_edges _ _ GI (u, v)) as E. split.
  - intros H. apply (dget_Some_key _ edge_eqb_ok) in H as [x Hx]. rewrite Hx in E.
    destruct (users W (u, v)); congruence.
  - intros H. destruct (users W (u, v)) eqn:EU; [congruence|].
    apply (dget_In _ edge_eqb_ok) in E. apply (in_map fst) in E. assumption.
Qed.

Lemma graph_edge_path : forall g W u v, graph_of g W ->
  (edge g u v <-> exists p, In p W /\ In (u, v) (pairs (chain p))).
Proof.
  intros g W u v GI. rewrite (graph_edge_users g W) by assumption. split.
  - intros H. destruct (users W (u, v)) as [|sg l] eqn:E; [congruence|].
    assert (In sg (users W (u, v))) by (rewrite E; left; reflexivity).
    apply users_In in H0 as [p [H1 [H2 H3]]]. eauto.
  - intros [p [H1 H2]] C. assert (In (fst p) (users W (u, v))) by (apply users_In; eauto).
    rewrite C in H. contradiction.
Qed.

Lemma chain_In_verts : forall g W p v, graph_of g W -> In p W -> In v (chain p) -> In v (vertices g).
Proof.
  intros g W p v GI Hp Hv. destruct Hv as [<-|Hv].
  - pose proof (gi_start _ _ GI) as H. apply (dget_In _ nat_eqb_ok) in H.
    apply (in_map fst) in H. assumption.
  - apply in_app_or in Hv as [Hv|[<-|[]]].
    + apply in_map_iff in Hv as [[v' ts] [<- Hv]]. apply (gi_on _ _ GI _ _ _ Hp Hv).
    + pose proof (gi_end _ _ GI) as H. apply (dget_In _ nat_eqb_ok) in H.
      apply (in_map fst) in H. assumption.
Qed.

Lemma graph_edge_verts : forall g W u v, graph_of g W -> edge g u v -> In u (vertices g) /\ In v (vertices g).
Proof.
  intros g W u v GI H. apply (graph_edge_path g W) in H as [p [H1 H2]]; auto. split.
  - apply chain_In_verts with W p; auto. eapply in_pairs_l; eauto.
  - apply chain_In_verts with W p; auto. eapply in_pairs_r; eauto.
Qed.

(** ** The assigned path *)
Lemma assign_In : forall aligned ts nx x, In x (assign aligned nx ts) ->
  (exists t, In t ts /\ dget Nat.eqb (tk_pos t) aligned = Some x) \/ nx <= x.
Proof.
  induction ts as [|t ts IH]; simpl; intros nx x H; [contradiction|].
  destruct (dget Nat.eqb (tk_pos t) aligned) eqn:E; destruct H as [->|H]; eauto.
  - apply IH in H as [[t' [H1 H2]]|H]; eauto.
  - apply IH in H as [[t' [H1 H2]]|H]; eauto. right. lia.
Qed.

Lemma assign_NoDup : forall aligned ts nx,
  (forall t v, In t ts -> dget Nat.eqb (tk_pos t) aligned = Some v -> v < nx) ->
  (forall t1 t2 v, In t1 ts -> In t2 ts -> dget Nat.eqb (tk_pos t1) aligned = Some v ->
     dget Nat.eqb (tk_pos t2) aligned = Some v -> tk_pos t1 = tk_pos t2) ->
  NoDup (map tk_pos ts) ->
  NoDup (assign aligned nx ts).
Proof.
  induction ts as [|t ts IH]; simpl; intros nx HB HI HN; [constructor|].
  inversion HN; subst.
  destruct (dget Nat.eqb (tk_pos t) aligned) as [v|] eqn:E.
  - constructor.
    + intro C. apply assign_In in C as [[t' [C1 C2]]|C].
      * apply H1. rewrite (HI t t' v); auto. apply in_map. assumption.
      * specialize (HB t v). assert (v < nx) by auto. lia.
    + apply IH; eauto.
  - constructor.
    + intro C. apply assign_In in C as [[t' [C1 C2]]|C].
      * specialize (HB t' nx). assert (nx < nx) by auto. lia.
      * lia.
    + apply IH; eauto. intros t' v' H3 H4. specialize (HB t' v'). assert (v' < nx) by auto. lia.
Qed.

(** Running maximum of the ranks of the aligned tokens. *)
Fixpoint pots (aligned : list (nat * vid)) (r : vid -> nat) (m : nat) (ts : list token) : list nat :=
  match ts with
  | [] => []
  | t :: ts' => let m' := match dget Nat.eqb (tk_pos t) aligned with
                          | Some v => Nat.max m (r v) | None => m end in
                m' :: pots aligned r m' ts'
  end.

Lemma pots_length : forall aligned r ts m, length (pots aligned r m ts) = length ts.
Proof. induction ts; simpl; intros; auto. Qed.

(** ** Potential for the merged graph. *)
Section Potential.
  Variable n : nat.
  Definition posf := list (vid * nat).

  (** numbering of the path vertices: rank * (n+2) + index + 1 *)
  Fixpoint number (i : nat) (path : list vid) (ms : list nat) : list (vid * nat) :=
    match path, ms with
    | v :: path', m :: ms' => (v, m * (n + 2) + i) :: number (S i) path' ms'
    | _, _ => []
    end.

  Lemma number_fst : forall path ms i, length path = length ms -> map fst (number i path ms) = path.
  Proof. induction path; destruct ms; simpl; intros; try discriminate; auto. f_equal. auto. Qed.
End Potential.

Lemma pairs_snoc : forall {A} (l : list A) a z, pairs (a :: l ++ [z]) = pairs (a :: l) ++ [(last l a, z)].
Proof.
  induction l as [|b l IH]; intros; [reflexivity|].
  change (a :: (b :: l) ++ [z]) with (a :: b :: (l ++ [z])).
  rewrite pairs_cons, IH, pairs_cons, last_cons. reflexivity.
Qed.

(** Along the assigned path the numbers grow. *)
Lemma number_path : forall aligned r n ts i m nx u0 (f : vid -> nat),
  (forall v x, In (v, x) (number n (S i) (assign aligned nx ts) (pots aligned r m ts)) -> f v = x) ->
  f u0 = m * (n + 2) + i ->
  i + length ts <= n ->
  forall u v, In (u, v) (pairs (u0 :: assign aligned nx ts)) -> f u < f v.
Proof.
  induction ts as [|t ts IH]; intros i m nx u0 f HF H0 HL u v HI.
  - simpl in HI. destruct HI.
  - simpl in HL. cbn [assign pots] in *.
    destruct (dget Nat.eqb (tk_pos t) aligned) as [w|] eqn:E.
    + rewrite pairs_cons in HI.
      assert (Hw : f w = Nat.max m (r w) * (n + 2) + S i) by (apply HF; left; reflexivity).
      destruct HI as [HI|HI].
      * injection HI as <- <-. rewrite H0, Hw. nia.
      * apply IH with (i := S i) (m := Nat.max m (r w)) (nx := nx) (u0 := w); auto; try lia.
        intros. apply HF. right. assumption.
    + rewrite pairs_cons in HI.
      assert (Hw : f nx = m * (n + 2) + S i) by (apply HF; left; reflexivity).
      destruct HI as [HI|HI].
      * injection HI as <- <-. rewrite H0, Hw. lia.
      * apply IH with (i := S i) (m := m) (nx := S nx) (u0 := nx); auto; try lia.
        intros. apply HF. right. assumption.
Qed.

(** The last vertex of the path: rank at most the bound. *)
Lemma number_last : forall aligned r n ts i m nx u0 (f : vid -> nat) top,
  (forall v x, In (v, x) (number n (S i) (assign aligned nx ts) (pots aligned r m ts)) -> f v = x) ->
  f u0 = m * (n + 2) + i -> m <= top ->
  (forall t v, In t ts -> dget Nat.eqb (tk_pos t) aligned = Some v -> r v <= top) ->
  i + length ts <= n ->
  f (last (assign aligned nx ts) u0) < top * (n + 2) + S n.
Proof.
  induction ts as [|t ts IH]; intros i m nx u0 f top HF H0 Hm HT HL.
  - simpl in *. rewrite H0. nia.
  - simpl in HL. cbn [assign pots] in *.
    destruct (dget Nat.eqb (tk_pos t) aligned) as [w|] eqn:E; rewrite last_cons.
    + assert (r w <= top) by (apply (HT t); simpl; auto).
      apply IH with (i := S i) (m := Nat.max m (r w)); try lia.
      * intros. apply HF. right. assumption.
      * apply HF. left. reflexivity.
      * intros. apply (HT t0); simpl; auto.
    + apply IH with (i := S i) (m := m); try lia.
      * intros. apply HF. right. assumption.
      * apply HF. left. reflexivity.
      * intros. apply (HT t0); simpl; auto.
Qed.

(** Every number is its rank bracket; aligned vertices keep their rank. *)
Lemma number_bracket : forall aligned r n ts i m nx v x,
  (forall t v, In t ts -> dget Nat.eqb (tk_pos t) aligned = Some v -> v < nx /\ m <= r v) ->
  StronglySorted (fun t1 t2 => forall v1 v2, dget Nat.eqb (tk_pos t1) aligned = Some v1 ->
      dget Nat.eqb (tk_pos t2) aligned = Some v2 -> r v1 <= r v2) ts ->
  i + length ts <= n ->
  In (v, x) (number n (S i) (assign aligned nx ts) (pots aligned r m ts)) ->
  nx <= v \/ (r v * (n + 2) <= x /\ x <= r v * (n + 2) + n).
Proof.
  induction ts as [|t ts IH]; intros i m nx v x HM HS HL HI; [contradiction|].
  inversion HS as [|? ? HS1 HS2]; subst. simpl in HL. cbn [assign pots] in HI.
  destruct (dget Nat.eqb (tk_pos t) aligned) as [w|] eqn:E.
  - destruct (HM t w) as [M1 M2]; simpl; auto.
    replace (Nat.max m (r w)) with (r w) in HI by lia.
    destruct HI as [HI|HI].
    + injection HI as <- <-. right. lia.
    + apply IH with (i := S i) (m := r w) (nx := nx) in HI; auto; try lia.
      intros t' v' H1 H2. destruct (HM t' v') as [M3 M4]; simpl; auto. split; auto.
      rewrite Forall_forall in HS2. apply (HS2 t'); auto.
  - destruct HI as [HI|HI].
    + injection HI as <- <-. left. lia.
    + apply IH with (i := S i) (m := m) (nx := S nx) in HI; auto; try lia.
      intros t' v' H1 H2. destruct (HM t' v') as [M3 M4]; simpl; auto.
Qed.

Record align_ok (g : graph) (r : vid -> nat) (aligned : list (nat * vid)) (ts : list token) : Prop := {
  ao_in : forall t v, In t ts -> dget Nat.eqb (tk_pos t) aligned = Some v ->
            In v (vertices g) /\ v <> v_start /\ v <> v_end;
  ao_inj : forall t1 t2 v, In t1 ts -> In t2 ts -> dget Nat.eqb (tk_pos t1) aligned = Some v ->
     dget Nat.eqb (tk_pos t2) aligned = Some v -> tk_pos t1 = tk_pos t2;
  ao_rank : forall u v, edge g u v -> r u < r v;
  ao_bounds : forall t v, In t ts -> dget Nat.eqb (tk_pos t) aligned = Some v ->
     r v_start <= r v /\ r v <= r v_end;
  ao_ends : r v_start <= r v_end;
  ao_sorted : StronglySorted (fun t1 t2 => forall v1 v2, dget Nat.eqb (tk_pos t1) aligned = Some v1 ->
      dget Nat.eqb (tk_pos t2) aligned = Some v2 -> r v1 <= r v2) ts
}.

Lemma v_neq : v_start <> v_end. Proof. discriminate. Qed.

Theorem merge_graph_of : forall g W sg ts aligned r,
  graph_of g W -> ~ In sg (map fst W) -> sg <> [] -> NoDup (map tk_pos ts) ->
  align_ok g r aligned ts ->
  let path := assign aligned (g_next g) ts in
  exists g' new, merge g sg ts aligned = Ok (g', new) /\
    graph_of g' (W ++ [(sg, steps ts path)]) /\
    new = filter (fun pv => negb (dmem Nat.eqb (fst pv) aligned)) (combine (map tk_pos ts) path) /\
    (forall v, In v (vertices g') <-> In v path \/ In v (vertices g)) /\
    (forall v vx', dget Nat.eqb v (g_verts g') = Some vx' ->
       match dget Nat.eqb v (g_verts g) with
       | Some vx => v_label vx' = v_label vx
       | None => exists t, In (t, v) (combine ts path) /\ v_label vx' = tk_str t
       end).
Proof.
  intros g W sg ts aligned r GI HW Hsg HN AO path.
  destruct (merge_tokens_spec ts g sg aligned v_start []) as
    [g1 [last' [t2v' [R1 [R2 [R3 [R4 [R5 [R6 [R7 R8]]]]]]]]]].
  { apply (gi_bound _ _ GI). }
  { intros t v H1 H2. apply (ao_in _ _ _ _ AO t v); auto. }
  { assumption. }
  { intros t _ []. }
  fold path in R2, R3, R4, R8.
  set (g' := connect g1 last' v_end sg).
  exists g', t2v'. unfold merge. rewrite R1. simpl. split; [reflexivity|].
  assert (LP : length path = length ts) by apply assign_length.
  assert (Lt : forall t v, In t ts -> dget Nat.eqb (tk_pos t) aligned = Some v -> v < g_next g).
  { intros t v H1 H2. apply (gi_bound _ _ GI). apply (ao_in _ _ _ _ AO t v); auto. }
  assert (ND : NoDup path).
  { apply assign_NoDup; auto. apply (ao_inj _ _ _ _ AO). }
  assert (Sb : v_start < g_next g /\ v_end < g_next g).
  { split; apply (gi_bound _ _ GI).
    - pose proof (gi_start _ _ GI) as H. apply (dget_In _ nat_eqb_ok) in H. apply (in_map fst) in H. assumption.
    - pose proof (gi_end _ _ GI) as H. apply (dget_In _ nat_eqb_ok) in H. apply (in_map fst) in H. assumption. }
  assert (NS : ~ In v_start path /\ ~ In v_end path).
  { split; intro C; apply assign_In in C as [[t [C1 C2]]|C]; try lia;
      destruct (ao_in _ _ _ _ AO t _ C1 C2) as [_ [C3 C4]]; congruence. }
  assert (NC : NoDup (v_start :: path ++ [v_end])).
  { constructor.
    - rewrite in_app_iff. intros [C|[C|[]]]; [exact (proj1 NS C) | discriminate].
    - apply NoDup_app_iff. split; auto. split; [constructor; [auto|constructor]|].
      intros x H [<-|[]]. exact (proj2 NS H). }
  set (p := (sg, steps ts path)).
  assert (CP : chain p = v_start :: path ++ [v_end]).
  { unfold chain, p. simpl. rewrite steps_fst by assumption. reflexivity. }
  assert (EQE : g_edges g' = conns sg (pairs (chain p)) (g_edges g)).
  { unfold g'. rewrite connect_edges. rewrite CP, pairs_snoc, conns_app.
    rewrite <- R3, R2. reflexivity. }
  assert (EQV : g_verts g' = vputs sg (combine ts path) (g_verts g)) by (unfold g'; simpl; assumption).
  assert (KV : forall v, In v (vertices g') <-> In v path \/ In v (vertices g)).
  { intros v. unfold vertices. rewrite EQV, vputs_In_key.
    rewrite map_snd_combine by (symmetry; assumption). reflexivity. }
  assert (GV : forall v, dget Nat.eqb v (g_verts g') =
     match dget Nat.eqb v (map (fun tv => (snd tv, fst tv)) (combine ts path)) with
     | Some t => Some (match dget Nat.eqb v (g_verts g) with
                    | Some vx => vertex_add_token vx sg t
                    | None => new_vertex t sg end)
     | None => dget Nat.eqb v (g_verts g) end).
  { intros v. rewrite EQV. apply vputs_get. rewrite map_snd_combine; auto. }
  assert (NP : forall v, ~ In v path ->
     dget Nat.eqb v (map (fun tv => (snd tv, fst tv)) (combine ts path)) = None).
  { intros v H. apply (dget_None _ nat_eqb_ok). rewrite map_map. simpl.
    rewrite map_snd_combine by (symmetry; assumption). assumption. }
  split; [|split; [rewrite R8; reflexivity|split; [exact KV|]]].
  2:{ intros v vx' H. rewrite GV in H.
      destruct (dget Nat.eqb v (map _ _)) as [t|] eqn:E.
      - injection H as <-. destruct (dget Nat.eqb v (g_verts g)); [reflexivity|].
        exists t. split; [|reflexivity]. apply (dget_In _ nat_eqb_ok) in E.
        apply in_map_iff in E as [[t' v'] [E1 E2]]. simpl in E1. injection E1 as -> ->. assumption.
      - rewrite H. reflexivity. }
  constructor.
  - rewrite map_app. apply NoDup_app_iff. split; [apply (gi_sigla _ _ GI)|].
    split; [constructor; [auto|constructor]|]. intros x H [<-|[]]. contradiction.
  - rewrite map_app, in_app_iff. intros [C|[C|[]]].
    + apply (gi_siglum _ _ GI). assumption.
    + apply Hsg. assumption.
  - unfold vertices. rewrite EQV. apply vputs_NoDup. apply (gi_verts _ _ GI).
  - exact R7.
  - rewrite GV, NP by apply NS. apply (gi_start _ _ GI).
  - rewrite GV, NP by apply NS. apply (gi_end _ _ GI).
  - intros q H. apply in_app_or in H as [H|[<-|[]]].
    + apply (gi_simple _ _ GI). assumption.
    + rewrite CP. assumption.
  - intros q v vs H Hv. apply in_app_or in H as [H|[<-|[]]].
    + destruct (gi_on _ _ GI _ _ _ H Hv) as [H1 H2]. split; auto. apply KV. auto.
    + simpl in Hv. split.
      * apply KV. left. apply (in_map fst) in Hv. rewrite steps_fst in Hv by assumption. assumption.
      * unfold steps in Hv. apply in_combine_r in Hv. apply in_map_iff in Hv as [t [<- _]]. discriminate.
  - intros v Hv. apply KV in Hv as [Hv|Hv].
    + right. right. rewrite <- (steps_fst ts path LP) in Hv.
      apply in_map_iff in Hv as [[v' vs] [<- Hv]]. exists p, vs. split; auto.
      apply in_or_app. right. left. reflexivity.
    + destruct (gi_cover _ _ GI v Hv) as [H|[H|[q [vs [H1 H2]]]]]; auto.
      right. right. exists q, vs. split; auto. apply in_or_app. auto.
  - intros v vx Hv. rewrite tokens_on_app. rewrite GV in Hv.
    unfold tokens_on at 2. simpl. rewrite steps_get by assumption.
    destruct (dget Nat.eqb v (map _ _)) as [t|] eqn:E.
    + simpl. injection Hv as <-. destruct (dget Nat.eqb v (g_verts g)) as [vx0|] eqn:E0.
      * simpl. rewrite (gi_tokens _ _ GI v vx0 E0).
        assert (D : ~ In sg (map fst (tokens_on W v))) by (intro C; apply tokens_on_sigla in C; contradiction).
        pose proof D as D'. apply (dget_None _ str_eqb_ok) in D'. rewrite D'.
        apply (dset_new _ str_eqb_ok). assumption.
      * assert (T0 : tokens_on W v = []).
        { destruct (tokens_on W v) as [|[sg0 ts0] l] eqn:ET; auto. exfalso.
          assert (In (sg0, ts0) (tokens_on W v)) by (rewrite ET; left; reflexivity).
          apply tokens_on_In in H as [q [H1 [_ H3]]]. apply (dget_In _ nat_eqb_ok) in H3.
          destruct (gi_on _ _ GI _ _ _ H1 H3) as [H4 _].
          apply (dget_None _ nat_eqb_ok) in E0. contradiction. }
        rewrite T0. simpl. destruct sg; [congruence|reflexivity].
    + simpl. rewrite app_nil_r. apply (gi_tokens _ _ GI). assumption.
  - unfold edge_pairs. rewrite EQE. apply conns_NoDup. apply (gi_edges_nodup _ _ GI).
  - intros e. rewrite EQE. rewrite conns_get by (apply pairs_NoDup; rewrite CP; assumption).
    rewrite users_app. fold p. replace (users [p] e) with (if existsb (edge_eqb e) (pairs (chain p)) then [sg] else [])
      by (unfold users; cbn [filter]; destruct (existsb (edge_eqb e) (pairs (chain p))); reflexivity).
    rewrite (gi_edges _ _ GI e).
    destruct (existsb (edge_eqb e) (pairs (chain p))) eqn:E.
    + destruct (users W e) as [|a l] eqn:EU; [reflexivity|].
      change ((a :: l) ++ [sg]) with (a :: (l ++ [sg])).
      rewrite <- (str_join_snoc (lit ", ") (a :: l) sg) by discriminate. reflexivity.
    + rewrite app_nil_r. reflexivity.
  - set (n := length ts).
    set (num := number n 1 path (pots aligned r (r v_start) ts)).
    assert (NF : map fst num = path).
    { apply number_fst. rewrite pots_length. assumption. }
    set (f := fun v => match dget Nat.eqb v num with
                       | Some x => x
                       | None => if v =? v_end then r v_end * (n + 2) + S n else r v * (n + 2) end).
    assert (FN : forall v x, In (v, x) num -> f v = x).
    { intros v x H. unfold f. rewrite (In_dget _ nat_eqb_ok v x num); auto. rewrite NF. assumption. }
    assert (FS : f v_start = r v_start * (n + 2) + 0).
    { unfold f. assert (dget Nat.eqb v_start num = None).
      { apply (dget_None _ nat_eqb_ok). rewrite NF. apply NS. }
      rewrite H. simpl. lia. }
    assert (FE : f v_end = r v_end * (n + 2) + S n).
    { unfold f. assert (dget Nat.eqb v_end num = None).
      { apply (dget_None _ nat_eqb_ok). rewrite NF. apply NS. }
      rewrite H. reflexivity. }
    assert (FO : forall v, In v (vertices g) -> r v * (n + 2) <= f v /\ f v <= r v * (n + 2) + S n).
    { intros v Hv. unfold f. destruct (dget Nat.eqb v num) as [x|] eqn:E.
      - apply (dget_In _ nat_eqb_ok) in E. unfold num, path in E.
        apply number_bracket with (i := 0) in E.
        + destruct E as [E|E]; [|lia]. apply (gi_bound _ _ GI) in Hv. lia.
        + intros t w H1 H2. split; [eauto|]. apply (ao_bounds _ _ _ _ AO t w); auto.
        + apply (ao_sorted _ _ _ _ AO).
        + unfold n. lia.
      - destruct (v =? v_end) eqn:E1; [apply Nat.eqb_eq in E1; subst v; lia | lia]. }
    apply (potential_acyclic g' f). intros u v H.
    assert (H' : In (u, v) (pairs (chain p)) \/ edge g u v).
    { unfold edge, edge_pairs in *. apply (dget_Some_key _ edge_eqb_ok) in H as [x Hx].
      rewrite EQE, conns_get in Hx by (apply pairs_NoDup; rewrite CP; assumption).
      destruct (existsb (edge_eqb (u, v)) (pairs (chain p))) eqn:E.
      - left. apply (existsb_eqb _ edge_eqb_ok). assumption.
      - right. apply (dget_In _ edge_eqb_ok) in Hx. apply (in_map fst) in Hx. assumption. }
    destruct H' as [H'|H'].
    + rewrite CP, pairs_snoc in H'. apply in_app_or in H' as [H'|[H'|[]]].
      * apply (number_path aligned r n ts 0 (r v_start) (g_next g) v_start f); auto.
      * injection H' as <- <-. rewrite FE.
        apply (number_last aligned r n ts 0 (r v_start)); auto.
        -- apply (ao_ends _ _ _ _ AO).
        -- intros t w H1 H2. apply (ao_bounds _ _ _ _ AO t w); auto.
    + destruct (graph_edge_verts g W u v GI H') as [V1 V2].
      pose proof (ao_rank _ _ _ _ AO u v H'). pose proof (FO u V1). pose proof (FO v V2). nia.
  - unfold g'. simpl. rewrite R5. apply (gi_near _ _ GI).
Qed.

Lemma empty_graph_of : graph_of empty_graph [].
Proof.
  constructor; try reflexivity; try (intros ? []; fail); try (intros ? ? ? []; fail).
  - constructor.
  - intros [].
  - constructor; [intros [H|[]]; discriminate|]. constructor; [intros []|constructor].
  - intros v [<-|[<-|[]]]; simpl; unfold v_start, v_end; lia.
  - intros v [<-|[<-|[]]]; auto.
  - intros v vx. simpl. destruct (v =? v_start); [intros H; injection H as <-; reflexivity|].
    destruct (v =? v_end); [intros H; injection H as <-; reflexivity|discriminate].
  - constructor.
  - apply (potential_acyclic empty_graph (fun _ => 0)). intros u v [].
Qed.
