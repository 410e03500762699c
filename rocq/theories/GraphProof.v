(** Proofs about merge: adding a witness to a variant graph. *)
From Verif Require Import Py Lib TokenModel SuffixModel IndexModel GraphModel GraphSpec.
From Coq Require Import Relations.

Lemma edge_eqb_ok : forall a b, edge_eqb a b = true <-> a = b.
Proof.
  intros [a1 a2] [b1 b2]. unfold edge_eqb. simpl. rewrite andb_true_iff, !Nat.eqb_eq.
  split; [intros [-> ->]; reflexivity | intros H; injection H; auto].
Qed.

(** ** Edges: connect along a path *)
Definition conn (lbl : str) (es : list (vid * vid * str)) (e : vid * vid) : list (vid * vid * str) :=
  match dget edge_eqb e es with
  | Some l => dset edge_eqb e (l ++ lit ", " ++ lbl) es
  | None => es ++ [(e, lbl)]
  end.

Lemma connect_edges : forall g u v l, g_edges (connect g u v l) = conn l (g_edges g) (u, v).
Proof. reflexivity. Qed.

Lemma conn_get : forall lbl es e e',
  dget edge_eqb e' (conn lbl es e) =
  if edge_eqb e e' then Some (match dget edge_eqb e es with Some l => l ++ lit ", " ++ lbl | None => lbl end)
  else dget edge_eqb e' es.
Proof.
  intros. unfold conn. destruct (dget edge_eqb e es) eqn:E.
  - rewrite (dget_set _ edge_eqb_ok). reflexivity.
  - rewrite dget_app. simpl. destruct (edge_eqb e e') eqn:E1.
    + apply edge_eqb_ok in E1. subst. rewrite E.
      rewrite (eqb_refl' _ edge_eqb_ok). reflexivity.
    + destruct (dget edge_eqb e' es) eqn:E2; auto.
      rewrite (eqb_neq _ edge_eqb_ok); auto. intros ->. rewrite (eqb_refl' _ edge_eqb_ok) in E1. discriminate.
Qed.

Lemma conn_NoDup : forall lbl es e, NoDup (map fst es) -> NoDup (map fst (conn lbl es e)).
Proof.
  intros. unfold conn. destruct (dget edge_eqb e es) eqn:E.
  - apply (dset_NoDup _ edge_eqb_ok). assumption.
  - apply (dget_None _ edge_eqb_ok) in E. rewrite map_app. simpl.
    apply NoDup_app_iff. split; auto. split.
    + constructor; [auto | constructor].
    + intros x Hx [<-|[]]. contradiction.
Qed.

Definition conns (lbl : str) (ps : list (vid * vid)) (es : list (vid * vid * str)) :=
  fold_left (conn lbl) ps es.

Lemma conns_NoDup : forall lbl ps es, NoDup (map fst es) -> NoDup (map fst (conns lbl ps es)).
Proof. induction ps; simpl; intros; auto. apply IHps. apply conn_NoDup. assumption. Qed.

Lemma conns_get : forall lbl ps es e, NoDup ps ->
  dget edge_eqb e (conns lbl ps es) =
  if existsb (edge_eqb e) ps
  then Some (match dget edge_eqb e es with Some l => l ++ lit ", " ++ lbl | None => lbl end)
  else dget edge_eqb e es.
Proof.
  induction ps as [|p ps IH]; intros es e N; simpl; auto.
  inversion N; subst. rewrite IH by assumption. rewrite conn_get.
  destruct (edge_eqb e p) eqn:E.
  - apply edge_eqb_ok in E. subst p. simpl.
    destruct (existsb (edge_eqb e) ps) eqn:E1.
    + apply (existsb_eqb _ edge_eqb_ok) in E1. contradiction.
    + rewrite (eqb_refl' _ edge_eqb_ok). reflexivity.
  - simpl. assert (E' : edge_eqb p e = false).
    { apply (eqb_neq _ edge_eqb_ok). intros ->. rewrite (eqb_refl' _ edge_eqb_ok) in E. discriminate. }
    rewrite E'. reflexivity.
Qed.

Lemma conns_app : forall lbl p1 p2 es, conns lbl (p1 ++ p2) es = conns lbl p2 (conns lbl p1 es).
Proof. intros. apply fold_left_app. Qed.

(** ** Consecutive pairs *)
Lemma pairs_cons : forall {A} (a b : A) l, pairs (a :: b :: l) = (a, b) :: pairs (b :: l).
Proof. reflexivity. Qed.

Lemma pairs_app : forall {A} (l1 l2 : list A) x, pairs (l1 ++ x :: l2) = pairs (l1 ++ [x]) ++ pairs (x :: l2).
Proof.
  induction l1 as [|a l1 IH]; intros; [reflexivity|].
  destruct l1 as [|b l1].
  - reflexivity.
  - change ((a :: b :: l1) ++ x :: l2) with (a :: b :: (l1 ++ x :: l2)).
    change ((a :: b :: l1) ++ [x]) with (a :: b :: (l1 ++ [x])).
    rewrite !pairs_cons. simpl. f_equal. apply (IH l2 x).
Qed.

Lemma pairs_In : forall {A} (l : list A) u v,
  In (u, v) (pairs l) <-> exists l1 l2, l = l1 ++ u :: v :: l2.
Proof.
  induction l as [|a l IH]; intros.
  - unfold pairs. simpl. split; [contradiction|]. intros [l1 [l2 H]]. destruct l1; discriminate.
  - destruct l as [|b l].
    + unfold pairs. simpl. split; [contradiction|]. intros [l1 [l2 H]].
      destruct l1 as [|? l1]; [discriminate|]. destruct l1; discriminate.
    + rewrite pairs_cons. simpl. rewrite IH. split.
      * intros [H|[l1 [l2 H]]].
        -- injection H as -> ->. exists [], l. reflexivity.
        -- exists (a :: l1), l2. simpl. congruence.
      * intros [l1 [l2 H]]. destruct l1 as [|c l1].
        -- simpl in H. injection H as -> -> ->. auto.
        -- simpl in H. injection H as -> H. right. eauto.
Qed.

Lemma pairs_NoDup : forall {A} (l : list A), NoDup l -> NoDup (pairs l).
Proof.
  induction l as [|a l IH]; intros N; [constructor|].
  destruct l as [|b l]; [constructor|]. rewrite pairs_cons. inversion N; subst.
  constructor; auto. intro C. apply pairs_In in C as [l1 [l2 E]]. apply H1.
  rewrite E. apply in_or_app. right. left. reflexivity.
Qed.

Lemma in_pairs_l : forall {A} (l : list A) u v, In (u, v) (pairs l) -> In u l.
Proof. intros. apply pairs_In in H as [l1 [l2 ->]]. apply in_or_app. right. left. reflexivity. Qed.
Lemma in_pairs_r : forall {A} (l : list A) u v, In (u, v) (pairs l) -> In v l.
Proof. intros. apply pairs_In in H as [l1 [l2 ->]]. apply in_or_app. right. right. left. reflexivity. Qed.

(** ** Vertices *)
Fixpoint assign (aligned : list (nat * vid)) (next : vid) (ts : list token) : list vid :=
  match ts with
  | [] => []
  | t :: ts' =>
    match dget Nat.eqb (tk_pos t) aligned with
    | Some v => v :: assign aligned next ts'
    | None => next :: assign aligned (S next) ts'
    end
  end.

Lemma assign_length : forall aligned ts next, length (assign aligned next ts) = length ts.
Proof. induction ts; simpl; intros; auto. destruct (dget _ _ _); simpl; auto. Qed.

Definition vput (sg : str) (vs : list (vid * vertex)) (tv : token * vid) : list (vid * vertex) :=
  match dget Nat.eqb (snd tv) vs with
  | Some vx => dset Nat.eqb (snd tv) (vertex_add_token vx sg (fst tv)) vs
  | None => vs ++ [(snd tv, new_vertex (fst tv) sg)]
  end.

Lemma vput_get : forall sg vs t v v',
  dget Nat.eqb v' (vput sg vs (t, v)) =
  if v =? v' then Some (match dget Nat.eqb v vs with
                        | Some vx => vertex_add_token vx sg t
                        | None => new_vertex t sg end)
  else dget Nat.eqb v' vs.
Proof.
  intros. unfold vput. simpl. destruct (dget Nat.eqb v vs) eqn:E.
  - rewrite (dget_set _ nat_eqb_ok). reflexivity.
  - rewrite dget_app. simpl. destruct (v =? v') eqn:E1.
    + apply Nat.eqb_eq in E1. subst. rewrite E, Nat.eqb_refl. reflexivity.
    + rewrite (Nat.eqb_sym v' v), E1. destruct (dget Nat.eqb v' vs); reflexivity.
Qed.

Lemma vput_keys : forall sg vs t v,
  map fst (vput sg vs (t, v)) = if existsb (Nat.eqb v) (map fst vs) then map fst vs else map fst vs ++ [v].
Proof.
  intros. unfold vput. simpl. destruct (dget Nat.eqb v vs) eqn:E.
  - assert (In v (map fst vs)). { apply (dget_In _ nat_eqb_ok) in E. apply (in_map fst) in E. assumption. }
    rewrite (dset_keys_old _ nat_eqb_ok) by assumption.
    apply (existsb_eqb _ nat_eqb_ok) in H. rewrite H. reflexivity.
  - apply (dget_None _ nat_eqb_ok) in E. rewrite map_app. simpl.
    destruct (existsb (Nat.eqb v) (map fst vs)) eqn:E1; auto.
    apply (existsb_eqb _ nat_eqb_ok) in E1. contradiction.
Qed.

Definition vputs (sg : str) (tvs : list (token * vid)) (vs : list (vid * vertex)) :=
  fold_left (vput sg) tvs vs.

Lemma vput_In_key : forall sg vs tv v',
  In v' (map fst (vput sg vs tv)) <-> v' = snd tv \/ In v' (map fst vs).
Proof.
  intros. destruct tv as [t v]. rewrite vput_keys. simpl.
  destruct (existsb (Nat.eqb v) (map fst vs)) eqn:E.
  - apply (existsb_eqb _ nat_eqb_ok) in E. split; auto. intros [->|H]; auto.
  - rewrite in_app_iff. simpl. intuition.
Qed.

Lemma vputs_In_key : forall sg tvs vs v',
  In v' (map fst (vputs sg tvs vs)) <-> In v' (map snd tvs) \/ In v' (map fst vs).
Proof.
  induction tvs; simpl; intros; [intuition|].
  rewrite IHtvs, vput_In_key. intuition.
Qed.

Lemma vput_NoDup : forall sg vs tv, NoDup (map fst vs) -> NoDup (map fst (vput sg vs tv)).
Proof.
  intros. destruct tv as [t v]. rewrite vput_keys.
  destruct (existsb (Nat.eqb v) (map fst vs)) eqn:E; auto.
  apply NoDup_app_iff. split; auto. split; [constructor; [auto|constructor]|].
  intros x Hx [<-|[]]. apply (existsb_eqb _ nat_eqb_ok) in Hx. congruence.
Qed.

Lemma vputs_NoDup : forall sg tvs vs, NoDup (map fst vs) -> NoDup (map fst (vputs sg tvs vs)).
Proof. induction tvs; simpl; intros; auto. apply IHtvs, vput_NoDup, H. Qed.

Lemma vputs_get : forall sg tvs vs v', NoDup (map snd tvs) ->
  dget Nat.eqb v' (vputs sg tvs vs) =
  match dget Nat.eqb v' (map (fun tv => (snd tv, fst tv)) tvs) with
  | Some t => Some (match dget Nat.eqb v' vs with
                    | Some vx => vertex_add_token vx sg t
                    | None => new_vertex t sg end)
  | None => dget Nat.eqb v' vs
  end.
Proof.
  induction tvs as [|[t v] tvs IH]; intros vs v' N; simpl; auto.
  inversion N; subst. simpl in *. rewrite IH by assumption. rewrite vput_get.
  destruct (v' =? v) eqn:E.
  - apply Nat.eqb_eq in E. subst v'. rewrite Nat.eqb_refl.
    assert (D : dget Nat.eqb v (map (fun tv => (snd tv, fst tv)) tvs) = None).
    { apply (dget_None _ nat_eqb_ok). rewrite map_map. simpl. assumption. }
    rewrite D. reflexivity.
  - rewrite (Nat.eqb_sym v v'), E. reflexivity.
Qed.

Lemma last_cons : forall {A} (l : list A) a d, last (a :: l) d = last l a.
Proof.
  induction l as [|b l IH]; intros; [reflexivity|].
  change (last (a :: b :: l) d) with (last (b :: l) d). rewrite (IH b d). symmetry. apply (IH b a).
Qed.

(** ** merge *)
Lemma merge_tokens_spec : forall ts g sg aligned last t2v,
  (forall v, In v (vertices g) -> v < g_next g) ->
  (forall t v, In t ts -> dget Nat.eqb (tk_pos t) aligned = Some v -> In v (vertices g)) ->
  NoDup (map tk_pos ts) ->
  (forall t, In t ts -> ~ In (tk_pos t) (map fst t2v)) ->
  let path := assign aligned (g_next g) ts in
  exists g' last' t2v', merge_tokens g sg ts aligned last t2v = Ok (g', last', t2v') /\
    last' = List.last path last /\
    g_edges g' = conns sg (pairs (last :: path)) (g_edges g) /\
    g_verts g' = vputs sg (combine ts path) (g_verts g) /\
    g_near g' = g_near g /\
    g_next g <= g_next g' /\
    (forall v, In v (vertices g') -> v < g_next g') /\
    t2v' = t2v ++ filter (fun pv => negb (dmem Nat.eqb (fst pv) aligned)) (combine (map tk_pos ts) path).
Proof.
  induction ts as [|t ts IH]; intros g sg aligned last t2v HB HA HN HD path.
  - exists g, last, t2v. unfold path. cbn. rewrite app_nil_r. intuition.
  - simpl in HN. inversion HN as [|? ? HN1 HN2]; subst.
    unfold path. cbn [assign merge_tokens]. destruct (dget Nat.eqb (tk_pos t) aligned) as [v|] eqn:E.
    + assert (Hv : In v (vertices g)) by (apply (HA t); simpl; auto).
      destruct (dget_Some_key _ nat_eqb_ok v (g_verts g) Hv) as [vx Hvx].
      unfold graph_add_token, get_vertex, dgetE. rewrite Hvx. simpl.
      set (g1 := connect (update_vertex g v (vertex_add_token vx sg t)) last v sg).
      assert (K : vertices g1 = vertices g).
      { unfold g1, vertices. simpl. apply (dset_keys_old _ nat_eqb_ok). assumption. }
      destruct (IH g1 sg aligned v t2v) as [g' [last' [t2v' [R1 [R2 [R3 [R4 [R5 [R6 [R7 R8]]]]]]]]]]; clear IH.
      * intros w Hw. rewrite K in Hw. apply HB. assumption.
      * intros t' v' Ht' E'. rewrite K. apply (HA t'); simpl; auto.
      * assumption.
      * intros t' Ht'. apply HD. simpl. auto.
      * exists g', last', t2v'. split; [exact R1|]. split.
        { rewrite R2. change (g_next g1) with (g_next g). symmetry. apply last_cons. }
        split; [exact R3|]. split.
        { rewrite R4. simpl. unfold vput. simpl. rewrite Hvx. reflexivity. }
        split; [exact R5|]. split; [exact R6|]. split; [exact R7|].
        rewrite R8. simpl. unfold dmem at 2. rewrite E. reflexivity.
    + set (v := g_next g).
      set (g1 := connect {| g_verts := g_verts g ++ [(v, new_vertex t sg)]; g_edges := g_edges g;
                            g_near := g_near g; g_next := S v |} last v sg).
      assert (K : vertices g1 = vertices g ++ [v]).
      { unfold g1, vertices. simpl. rewrite map_app. reflexivity. }
      destruct (IH g1 sg aligned v (dset Nat.eqb (tk_pos t) v t2v))
        as [g' [last' [t2v' [R1 [R2 [R3 [R4 [R5 [R6 [R7 R8]]]]]]]]]]; clear IH.
      * intros w Hw. rewrite K in Hw. apply in_app_or in Hw as [Hw|[<-|[]]]; simpl; [|lia].
        apply HB in Hw. unfold v. lia.
      * intros t' v' Ht' E'. rewrite K. apply in_or_app. left. apply (HA t'); simpl; auto.
      * assumption.
      * intros t' Ht' C. apply (dset_In_key _ nat_eqb_ok) in C as [C|C].
        -- apply HN1. rewrite <- C. apply in_map. assumption.
        -- apply (HD t'); simpl; auto.
      * exists g', last', t2v'. split; [exact R1|]. split.
        { rewrite R2. change (g_next g1) with (S v). symmetry. apply last_cons. }
        split; [exact R3|]. split.
        { rewrite R4. simpl. unfold vput. simpl.
          assert (D : dget Nat.eqb v (g_verts g) = None).
          { apply (dget_None _ nat_eqb_ok). intro C. apply HB in C. unfold v in C. lia. }
          rewrite D. reflexivity. }
        split; [exact R5|]. split; [simpl in R6; unfold v in *; lia|]. split; [exact R7|].
        rewrite R8. rewrite (dset_new _ nat_eqb_ok) by (apply HD; simpl; auto).
        simpl. unfold dmem at 2. rewrite E. rewrite <- app_assoc. reflexivity.
Qed.
