(** The intervals of tokenindex.split_lcp_array_into_intervals are nested or apart. *)
From Verif Require Import Py TokenModel SuffixModel IndexModel Lib.
From Coq Require Import Sorted.
Open Scope list_scope.
Open Scope nat_scope.

Definition apart_or_nested (b c : block) : Prop :=
  b_end b < b_start c \/ b_end c < b_start b \/ (b_start c <= b_start b /\ b_end b <= b_end c) \/ (b_start b <= b_start c /\ b_end c <= b_end b).

(** The state before interval [idx] is read: the open intervals have starts that go down, the closed ones end
    before and are inside an open interval or before it. *)
Record nested_inv (idx : nat) (open : list (nat * nat)) (closed : list block) : Prop := {
  ni_open : StronglySorted (fun p q => fst q <= fst p) open;
  ni_start : forall p, In p open -> S (fst p) <= idx \/ fst p = 0;
  ni_end : forall b, In b closed -> S (S (b_end b)) <= idx;
  ni_mixed : forall p b, In p open -> In b closed -> fst p <= b_start b \/ b_end b < fst p;
  ni_closed : forall b c, In b closed -> In c closed -> apart_or_nested b c }.

Definition inside (s : nat) (b : block) : Prop := s <= b_start b \/ b_end b < s.
Record closing_inv (idx : nat) (open : list (nat * nat)) (closed : list block) : Prop := {
  ci_open : StronglySorted (fun p q => fst q <= fst p) open;
  ci_start : forall p, In p open -> S (fst p) <= idx \/ fst p = 0;
  ci_end : forall b, In b closed -> S (b_end b) <= idx;
  ci_mixed : forall p b, In p open -> In b closed -> inside (fst p) b;
  ci_closed : forall b c, In b closed -> In c closed -> apart_or_nested b c }.

Lemma close_one : forall idx st len open closed, 0 < idx -> closing_inv idx ((st, len) :: open) closed ->
  let b := {| b_start := st; b_end := idx - 1; b_len := len |} in
  closing_inv idx open (closed ++ [b]) /\ (forall c, In c (closed ++ [b]) -> inside st c) /\ (forall p, In p open -> fst p <= st).
Proof.
  intros idx st len open closed L [O S E M C] b. inversion O as [|? ? O' F]; subst. rewrite Forall_forall in F.
  assert (MB : forall c, In c closed -> inside st c) by (intros c Hc; apply (M (st, len) c (or_introl eq_refl) Hc)).
  assert (NB : forall c, In c closed -> apart_or_nested b c /\ apart_or_nested c b).
  { intros c Hc. pose proof (MB c Hc) as Q. pose proof (E c Hc). unfold inside, apart_or_nested, b in *. cbn [b_start b_end]. lia. }
  split; [|split].
  - constructor.
    + exact O'.
    + intros p Hp. apply S. right. exact Hp.
    + intros c Hc. apply in_app_or in Hc as [Hc|[<-|[]]]; [apply E; exact Hc|cbn [b b_end]; lia].
    + intros p c Hp Hc. apply in_app_or in Hc as [Hc|[<-|[]]]; [apply M; [right; exact Hp|exact Hc]|]. left. apply (F p Hp).
    + intros c d Hc Hd. apply in_app_or in Hc as [Hc|[<-|[]]]; apply in_app_or in Hd as [Hd|[<-|[]]].
      * apply C; assumption.
      * apply NB; exact Hc.
      * apply NB; exact Hd.
      * unfold apart_or_nested. lia.
  - intros c Hc. apply in_app_or in Hc as [Hc|[<-|[]]]; [apply MB; exact Hc|left; cbn; lia].
  - intros p Hp. apply (F p Hp).
Qed.

Lemma closed_some : forall idx lcp open closed open' closed', 0 < idx -> closing_inv idx open closed -> close_intervals idx lcp open closed = (open', closed') ->
  closing_inv idx open' closed' /\
  (open' = open /\ closed' = closed \/
   exists k b, closed' = k ++ [b] /\ (forall c, In c closed' -> inside (b_start b) c) /\ (forall p, In p open' -> fst p <= b_start b) /\ (S (b_start b) <= idx \/ b_start b = 0)).
Proof.
  induction open as [|[st len] open IH]; intros closed open' closed' L I H; cbn [close_intervals] in H.
  - injection H as <- <-. auto.
  - destruct (lcp <? len); [|injection H as <- <-; auto].
    assert (S0 : S st <= idx \/ st = 0) by (apply (ci_start _ _ _ I (st, len)); left; reflexivity).
    destruct (close_one idx st len open closed L I) as [I' [Q1 Q2]]. destruct (IH _ _ _ L I' H) as [J [[-> ->]|K]].
    + split; [exact J|]. right. eexists. eexists. split; [reflexivity|]. split; [exact Q1|]. split; [exact Q2|exact S0].
    + split; [exact J|]. right. exact K.
Qed.

Definition split_inv (idx : nat) (st : nat * list (nat * nat) * list block) : Prop :=
  let '(prev, open, closed) := st in
  nested_inv idx open closed /\ (prev = 0 \/ exists s open', open = (s, prev) :: open') /\ (idx = 0 -> prev = 0).

Lemma split_step_inv : forall idx lcp st st', split_inv idx st -> split_step st (idx, lcp) = Ok st' -> split_inv (S idx) st'.
Proof.
  intros idx lcp [[prev open] closed] st' [[O S0 E M C] [P Z]] H. unfold split_step in H.
  assert (G : nested_inv (S idx) open closed).
  { constructor; [exact O| |  |exact M|exact C].
    - intros p Hp. destruct (S0 p Hp); lia.
    - intros b Hb. pose proof (E b Hb). lia. }
  destruct (prev <? lcp) eqn:E1.
  - injection H as <-. split; [|split; [right; eauto|discriminate]]. destruct G as [GO GS GE GM GC]. constructor; auto.
    + constructor; [exact O|]. apply Forall_forall. intros p Hp. cbn [fst]. destruct (S0 p Hp); lia.
    + intros p [<-|Hp]; [cbn [fst]; lia|apply GS; exact Hp].
    + intros p b [<-|Hp] Hb; [|apply M; assumption]. right. cbn [fst]. pose proof (E b Hb). lia.
  - destruct (lcp <? prev) eqn:E2.
    + apply Nat.ltb_lt in E2. destruct P as [P|[s [o1 P]]]; [lia|]. assert (NZ : 0 < idx) by (destruct idx; [specialize (Z eq_refl); lia|lia]).
      destruct (close_intervals idx lcp open closed) as [open' closed'] eqn:CI.
      assert (I0 : closing_inv idx open closed) by (constructor; auto; intros b Hb; pose proof (E b Hb); lia).
      destruct (closed_some idx lcp open closed open' closed' NZ I0 CI) as [[JO JS JE JM JC] K].
      assert (K' : exists k b, closed' = k ++ [b] /\ (forall c, In c closed' -> inside (b_start b) c) /\ (forall p, In p open' -> fst p <= b_start b) /\ (S (b_start b) <= idx \/ b_start b = 0)).
      { destruct K as [[-> ->]|K]; [|exact K]. exfalso. subst open. cbn [close_intervals] in CI. rewrite (proj2 (Nat.ltb_lt _ _) E2) in CI.
        assert (LE : forall o c o2 c2, close_intervals idx lcp o c = (o2, c2) -> length o2 <= length o).
        { clear. induction o as [|[a b] o IH]; intros c o2 c2 H; cbn [close_intervals] in H; [injection H as <- <-; lia|].
          destruct (lcp <? b); [apply IH in H; cbn [length]; lia|injection H as <- <-; lia]. }
        apply LE in CI. cbn [length] in CI. lia. }
      destruct K' as [k [b [-> [K1 [K2 K3]]]]].
      assert (N1 : nested_inv (S idx) open' (k ++ [b])).
      { constructor; [exact JO|intros p Hp; destruct (JS p Hp); lia|intros c Hc; pose proof (JE c Hc); lia|exact JM|exact JC]. }
      destruct (0 <? lcp) eqn:E3.
      * rewrite rev_app_distr in H. cbn [rev app bind] in H. injection H as <-. split; [|split; [right; eauto|discriminate]].
        destruct N1 as [NO NS NE NM NC]. constructor; auto.
        -- constructor; [exact NO|]. apply Forall_forall. exact K2.
        -- intros p [<-|Hp]; [cbn [fst]; lia|apply NS; exact Hp].
        -- intros p c [<-|Hp] Hc; [apply (K1 c Hc)|apply NM; assumption].
      * cbn [bind] in H. injection H as <-. split; [exact N1|]. split; [left; apply Nat.ltb_ge in E3; lia|discriminate].
    + injection H as <-. split; [exact G|]. split; [exact P|discriminate].
Qed.

Theorem split_nested : forall lcps bs b c, split_lcp lcps = Ok bs -> In b bs -> In c bs -> apart_or_nested b c.
Proof.
  intros lcps bs b c H. unfold split_lcp in H. apply bind_ok in H as [[[prev open] closed] [F H]]. injection H as <-.
  assert (G : forall l k st st', split_inv k st -> foldM split_step (combine (seq k (length l)) l) st = Ok st' -> split_inv (k + length l) st').
  { clear. induction l as [|x l IH]; intros k st st' I H; cbn [length seq combine foldM] in H.
    - injection H as <-. cbn [length]. rewrite Nat.add_0_r. exact I.
    - apply bind_ok in H as [st1 [H1 H2]]. apply (split_step_inv _ _ _ _ I) in H1. cbn [length]. rewrite Nat.add_succ_r. apply (IH (S k) st1 st' H1 H2). }
  assert (I0 : split_inv 0 (0, [], [])).
  { split; [|split; [left; reflexivity|reflexivity]]. constructor; [constructor|intros ? []|intros ? []|intros ? ? []|intros ? ? []]. }
  apply (G lcps 0 _ _ I0) in F. destruct F as [[O S0 E M C] _]. cbn [Nat.add] in *.
  assert (IN : forall x, In x (closed ++ map (fun '(s, l) => {| b_start := s; b_end := length lcps - 1; b_len := l |}) (filter (fun '(_, l) => 0 <? l) (rev open))) ->
    In x closed \/ exists p, In p open /\ b_start x = fst p /\ b_end x = length lcps - 1).
  { intros x Hx. apply in_app_or in Hx as [Hx|Hx]; [left; exact Hx|]. right. apply in_map_iff in Hx as [[s l] [<- Hx]]. apply filter_In in Hx as [Hx _]. apply in_rev in Hx. exists (s, l). auto. }
  intros Hb Hc. apply IN in Hb, Hc. unfold apart_or_nested. destruct Hb as [Hb|[p [P1 [P2 P3]]]], Hc as [Hc|[q [Q1 [Q2 Q3]]]].
  - apply C; assumption.
  - pose proof (M q b Q1 Hb). pose proof (E b Hb). lia.
  - pose proof (M p c P1 Hc). pose proof (E c Hc). lia.
  - lia.
Qed.
