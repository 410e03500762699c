(** Proofs about the JSON text: the reader of JsonSpec.v gives back the value. *)
From Verif Require Import Py TokenModel ExportModel RangeSetModel RangeProof OutputProof ExportProof StageProof JsonModel JsonSpec.
From Coq Require DecimalN.
From Coq Require Import Permutation.
Open Scope nat_scope.
Open Scope list_scope.

(** ** Strings *)
Lemma small_chars : forall c, (c < 32)%N -> In c (map N.of_nat (seq 0 32)).
Proof. intros c H. apply in_map_iff. exists (N.to_nat c). split; [apply N2Nat.id|]. apply in_seq. lia. Qed.

Lemma read_char : forall c r, read_string (json_char c ++ r) = match read_string r with Some (l, r') => Some (c :: l, r') | None => None end.
Proof.
  intros c r. destruct (N.ltb_spec c 32) as [L|L].
  - apply small_chars in L. cbn [map seq N.of_nat Pos.of_succ_nat Pos.succ] in L.
    repeat (destruct L as [<-|L]; [reflexivity|]). contradiction.
  - unfold json_char. destruct (N.eqb_spec c 34) as [->|N1]; [reflexivity|]. destruct (N.eqb_spec c 92) as [->|N2]; [reflexivity|].
    replace (c =? 10)%N with false by (symmetry; apply N.eqb_neq; lia). replace (c =? 13)%N with false by (symmetry; apply N.eqb_neq; lia).
    replace (c =? 9)%N with false by (symmetry; apply N.eqb_neq; lia). replace (c =? 12)%N with false by (symmetry; apply N.eqb_neq; lia).
    replace (c =? 8)%N with false by (symmetry; apply N.eqb_neq; lia). replace (c <? 32)%N with false by (symmetry; apply N.ltb_ge; lia).
    cbn [app read_string]. replace (c =? 34)%N with false by (symmetry; apply N.eqb_neq; assumption). replace (c <? 32)%N with false by (symmetry; apply N.ltb_ge; lia).
    replace (c =? 92)%N with false by (symmetry; apply N.eqb_neq; assumption). reflexivity.
Qed.
Lemma read_chars : forall s r, read_string (flat_map json_char s ++ 34%N :: r) = Some (s, r).
Proof. induction s as [|c s IH]; intros r; [reflexivity|]. cbn [flat_map]. rewrite <- app_assoc, read_char, IH. reflexivity. Qed.

(** ** White space *)
Definition white (w : str) : Prop := Forall (fun c => json_white c = true) w.
Lemma skip_app : forall w r, white w -> skip_white (w ++ r) = skip_white r.
Proof.
  intros w r H. induction H as [|c w Hc _ IH]; [reflexivity|]. unfold skip_white in *. cbn [app span]. rewrite Hc. destruct (span json_white (w ++ r)) as [a b]. cbn [snd] in *. assumption.
Qed.
Lemma skip_stay : forall c r, json_white c = false -> skip_white (c :: r) = c :: r.
Proof. intros c r H. unfold skip_white. cbn [span]. rewrite H. reflexivity. Qed.
Lemma newline_white : forall i l, white (json_newline i l).
Proof.
  intros [k|] l; [|constructor]. constructor; [reflexivity|]. apply Forall_forall. intros c Hc. apply repeat_spec in Hc. subst. reflexivity.
Qed.
Lemma comma_shape : forall i l, exists w, json_comma i l = 44%N :: w /\ white w /\ w <> [].
Proof.
  intros [k|] l; eexists; (split; [reflexivity|]); (split; [|discriminate]); [apply (newline_white (Some k))|repeat constructor].
Qed.

(** ** Numbers *)
Lemma digits_span : forall s r, Forall is_digit s -> match r with [] => True | c :: _ => digit c = false end -> span digit (s ++ r) = (s, r).
Proof.
  intros s r H R. induction H as [|c s Hc _ IH]; cbn [app span].
  - destruct r as [|c r]; [reflexivity|]. cbn [span]. rewrite R. reflexivity.
  - replace (digit c) with true by (symmetry; unfold digit, is_digit in *; apply andb_true_iff; split; apply N.leb_le; lia). rewrite IH. reflexivity.
Qed.
Lemma read_uint_number : forall n r, match r with [] => True | c :: _ => digit c = false end -> read_number (uint_chars (N.to_uint n) ++ r) = Some (n, r).
Proof.
  intros n r R. unfold read_number. rewrite (digits_span _ _ (uint_chars_digits _) R). pose proof (DecimalN.Unsigned.of_to n) as E. rewrite num_uint in E.
  destruct (N.to_uint n) eqn:U; [exfalso; exact (to_uint_not_nil _ U)| | | | | | | | | |]; cbn [uint_chars] in *;
    try (cbn [N.eqb Pos.eqb andb]; change (digits_value (?c :: ?l)) with (num_from 0 (c :: l)); f_equal; f_equal; exact E).
  pose proof (to_uint_head _ _ U) as ->. injection U as <-. reflexivity.
Qed.
Lemma uint_head : forall n, exists c s, uint_chars (N.to_uint n) = c :: s /\ is_digit c.
Proof.
  intros n. pose proof (uint_chars_digits (N.to_uint n)) as F. destruct (uint_chars (N.to_uint n)) as [|c s] eqn:E.
  - exfalso. apply (to_uint_not_nil n). destruct (N.to_uint n); [reflexivity|discriminate..].
  - exists c, s. split; [reflexivity|]. inversion F. assumption.
Qed.

(** ** Values *)
Fixpoint canon (v : jval) : jval :=
  match v with
  | JArr l => JArr (map canon l)
  | JObj d => JObj (sort_items (map (fun m => (fst m, canon (snd m))) d))
  | _ => v
  end.

Lemma insert_map : forall {V W} (f : V -> W) x l, insert_item (fst x, f (snd x)) (map (fun m => (fst m, f (snd m))) l) = map (fun m => (fst m, f (snd m))) (insert_item x l).
Proof.
  intros V W f x l. induction l as [|y l IH]; [reflexivity|]. cbn [map insert_item fst]. destruct (str_ltb (fst y) (fst x)); [|reflexivity]. cbn [map]. rewrite IH. reflexivity.
Qed.
Lemma sort_map : forall {V W} (f : V -> W) l, sort_items (map (fun m => (fst m, f (snd m))) l) = map (fun m => (fst m, f (snd m))) (sort_items l).
Proof.
  intros V W f l. unfold sort_items. induction l as [|x l IH]; [reflexivity|]. cbn [map fold_right]. rewrite IH. apply insert_map.
Qed.

Definition head_ok (c : N) : Prop := json_white c = false /\ c <> 93%N /\ c <> 125%N.
Lemma dumps_head : forall i l v, exists c r, json_dumps i l v = c :: r /\ head_ok c.
Proof.
  intros i l v. unfold head_ok. destruct v as [|[|]|z|s|[|x a]|[|m d]]; try (eexists; eexists; split; [reflexivity|]; split; [reflexivity|split; discriminate]).
  cbn [json_dumps]. unfold json_int. destruct (uint_head (Z.abs_N z)) as [c [s [-> [H1 H2]]]].
  destruct (z <? 0)%Z; eexists; eexists; (split; [reflexivity|]); split; try discriminate; try reflexivity; try (split; discriminate).
  - unfold json_white. repeat (apply orb_false_iff; split); apply N.eqb_neq; lia.
  - split; lia.
Qed.

Section Text.
  Variable i : option nat.
  Notation dumps := (json_dumps i).
  Definition member (l : nat) (m : str * jval) : str := json_string (fst m) ++ lit ": " ++ dumps l (snd m).

  Lemma dumps_arr : forall l x a, dumps l (JArr (x :: a)) = 91%N :: json_newline i (S l) ++ str_join (json_comma i (S l)) (map (dumps (S l)) (x :: a)) ++ json_newline i l ++ [93%N].
  Proof. reflexivity. Qed.
  Lemma dumps_obj : forall l m d, dumps l (JObj (m :: d)) = 123%N :: json_newline i (S l) ++ str_join (json_comma i (S l)) (map (member (S l)) (sort_items (m :: d))) ++ json_newline i l ++ [125%N].
  Proof.
    intros l m d. change (dumps l (JObj (m :: d))) with (123%N :: json_newline i (S l) ++
      str_join (json_comma i (S l)) (map (fun m => json_string (fst m) ++ lit ": " ++ snd m) (sort_items (map (fun m => (fst m, dumps (S l) (snd m))) (m :: d)))) ++ json_newline i l ++ [125%N]).
    rewrite sort_map, map_map. reflexivity.
  Qed.

  Definition tail_ok (r : str) : Prop := match r with [] => True | c :: _ => digit c = false end.
  Lemma tail_close : forall l c r, digit c = false -> tail_ok (json_newline i l ++ c :: r).
  Proof. intros l c r H. destruct i as [k|]; [reflexivity|]. exact H. Qed.
  Lemma tail_comma : forall l r, tail_ok (json_comma i l ++ r).
  Proof. intros l r. destruct (comma_shape i l) as [w [-> _]]. reflexivity. Qed.
  Lemma read_value_white : forall f w s, white w -> read_value f (w ++ s) = read_value f s.
  Proof. intros [|f] w s H; [reflexivity|]. cbn [read_value]. rewrite skip_app by assumption. reflexivity. Qed.

  Definition value_reads (f : nat) : Prop := forall v l rest, length (dumps l v) < f -> tail_ok rest -> read_value f (dumps l v ++ rest) = Some (canon v, rest).
  Definition items_read (f : nat) : Prop := forall a l l' w rest, a <> [] -> white w ->
    length (str_join (json_comma i l) (map (dumps l) a)) + 1 < f ->
    read_items f (w ++ str_join (json_comma i l) (map (dumps l) a) ++ json_newline i l' ++ 93%N :: rest) = Some (map canon a, rest).
  Definition members_read (f : nat) : Prop := forall d l l' w rest, d <> [] -> white w ->
    length (str_join (json_comma i l) (map (member l) d)) + 1 < f ->
    read_members f (w ++ str_join (json_comma i l) (map (member l) d) ++ json_newline i l' ++ 125%N :: rest) = Some (map (fun m => (fst m, canon (snd m))) d, rest).

  Lemma items_step : forall f, value_reads f -> items_read f -> items_read (S f).
  Proof.
    intros f HV HI a l l' w rest Na Hw Hf. destruct a as [|v a]; [contradiction|]. cbn [read_items]. rewrite read_value_white by assumption. destruct a as [|v' a].
    - cbn [map str_join] in *. rewrite HV; [|lia|apply tail_close; reflexivity].
      rewrite skip_app by apply newline_white. rewrite skip_stay by reflexivity. reflexivity.
    - destruct (comma_shape i l) as [cw [EC [Wc Nc]]].
      change (str_join (json_comma i l) (map (dumps l) (v :: v' :: a))) with (dumps l v ++ json_comma i l ++ str_join (json_comma i l) (map (dumps l) (v' :: a))) in Hf |- *.
      rewrite !app_length in Hf. rewrite <- !app_assoc. destruct (dumps_head i l v) as [c0 [r0 [E0 _]]].
      assert (L1 : 1 <= length (dumps l v)) by (rewrite E0; cbn; lia).
      assert (L2 : 2 <= length (json_comma i l)) by (rewrite EC; destruct cw; [contradiction|cbn; lia]).
      rewrite HV; [|lia|apply tail_comma]. rewrite EC. cbn [app]. rewrite skip_stay by reflexivity. cbn [N.eqb Pos.eqb]. rewrite <- EC.
      rewrite HI; [reflexivity|discriminate|assumption|lia].
  Qed.

  Lemma read_key : forall f k l v r rest, value_reads f -> length (dumps l v) < f -> tail_ok rest -> rest = r ->
    forall w, white w -> read_members (S f) (w ++ member l (k, v) ++ rest) =
      match skip_white r with
      | c :: r' => if (c =? 125)%N then Some ([(k, canon v)], r')
                   else if (c =? 44)%N then match read_members f r' with Some (l, r'') => Some ((k, canon v) :: l, r'') | None => None end else None
      | [] => None
      end.
  Proof.
    intros f k l v r rest HV Hf T -> w W. cbn [read_members]. rewrite skip_app by assumption. unfold member, json_string. cbn [fst snd]. rewrite <- !app_assoc. cbn [app].
    rewrite skip_stay by reflexivity. cbn [N.eqb Pos.eqb]. rewrite read_chars. change (lit ": ") with [58%N; 32%N]. cbn [app].
    rewrite skip_stay by reflexivity. cbn [N.eqb Pos.eqb].
    change (32%N :: dumps l v ++ r) with ([32%N] ++ dumps l v ++ r). rewrite read_value_white by (repeat constructor). rewrite HV by assumption. reflexivity.
  Qed.

  Lemma members_step : forall f, value_reads f -> members_read f -> members_read (S f).
  Proof.
    intros f HV HI d l l' w rest Na Hw Hf. destruct d as [|[k v] d]; [contradiction|].
    assert (LM : length (dumps l v) < length (member l (k, v))) by (unfold member; rewrite !app_length; cbn [snd length lit]; lia).
    destruct d as [|m' d].
    - cbn [map str_join] in *. erewrite read_key; [|eassumption|lia|apply tail_close; reflexivity|reflexivity|assumption].
      rewrite skip_app by apply newline_white. rewrite skip_stay by reflexivity. reflexivity.
    - destruct (comma_shape i l) as [cw [EC [Wc Nc]]].
      change (str_join (json_comma i l) (map (member l) ((k, v) :: m' :: d))) with (member l (k, v) ++ json_comma i l ++ str_join (json_comma i l) (map (member l) (m' :: d))) in Hf |- *.
      rewrite !app_length in Hf. rewrite <- !app_assoc.
      assert (L2 : 2 <= length (json_comma i l)) by (rewrite EC; destruct cw; [contradiction|cbn; lia]).
      erewrite read_key; [|eassumption|lia|apply tail_comma|reflexivity|assumption].
      rewrite EC. cbn [app]. rewrite skip_stay by reflexivity. cbn [N.eqb Pos.eqb]. rewrite <- EC.
      rewrite HI; [reflexivity|discriminate|assumption|lia].
  Qed.

  Lemma sort_nonempty : forall {V} (m : str * V) d, sort_items (m :: d) <> [].
  Proof. intros V m d E. assert (In m (sort_items (m :: d))) by (apply sort_items_In; left; reflexivity). rewrite E in *. contradiction. Qed.
  Lemma join_head : forall {A} (g : A -> str) sep (a : list A), a <> [] -> (forall x, exists c r, g x = c :: r /\ head_ok c) ->
    exists c r, str_join sep (map g a) = c :: r /\ head_ok c.
  Proof.
    intros A g sep a H G. destruct a as [|x a]; [contradiction|]. destruct (G x) as [c [r [E Hc]]]. destruct a as [|y a]; cbn [map str_join]; rewrite E; eexists; eexists; (split; [reflexivity|assumption]).
  Qed.

  Lemma value_step : forall f, items_read f -> members_read f -> value_reads (S f).
  Proof.
    intros f HI HM v l rest Hf T. destruct v as [|[|]|z|s|a|d]; try reflexivity.
    - cbn [json_dumps canon] in *. unfold json_int in *. destruct (uint_head (Z.abs_N z)) as [c [s [E [H1 H2]]]]. destruct (Z.ltb_spec z 0) as [Hz|Hz].
      + cbn [app read_value]. rewrite skip_stay by reflexivity. cbn [N.eqb Pos.eqb]. rewrite read_uint_number by assumption. f_equal. f_equal. f_equal. lia.
      + cbn [read_value]. pose proof (read_uint_number (Z.abs_N z) rest T) as RN. rewrite E in *. cbn [app] in *.
        rewrite skip_stay by (unfold json_white; repeat (apply orb_false_iff; split); apply N.eqb_neq; lia).
        replace (c =? 34)%N with false by (symmetry; apply N.eqb_neq; lia). replace (c =? 91)%N with false by (symmetry; apply N.eqb_neq; lia).
        replace (c =? 123)%N with false by (symmetry; apply N.eqb_neq; lia). replace (c =? 110)%N with false by (symmetry; apply N.eqb_neq; lia).
        replace (c =? 116)%N with false by (symmetry; apply N.eqb_neq; lia). replace (c =? 102)%N with false by (symmetry; apply N.eqb_neq; lia).
        replace (c =? 45)%N with false by (symmetry; apply N.eqb_neq; lia). rewrite RN. f_equal. f_equal. f_equal. lia.
    - cbn [json_dumps canon read_value]. unfold json_string. rewrite <- !app_assoc. cbn [app]. rewrite skip_stay by reflexivity. cbn [N.eqb Pos.eqb].
      rewrite read_chars. reflexivity.
    - destruct a as [|x a]; [reflexivity|]. rewrite dumps_arr in *. cbn [length] in Hf. rewrite !app_length in Hf. cbn [length] in Hf.
      cbn [app read_value]. rewrite skip_stay by reflexivity. cbn [N.eqb Pos.eqb]. rewrite <- !app_assoc. cbn [app].
      destruct (join_head (dumps (S l)) (json_comma i (S l)) (x :: a)) as [c [r [E [C1 [C2 C3]]]]]; [discriminate|intros; apply dumps_head|].
      rewrite skip_app by apply newline_white. rewrite E. cbn [app]. rewrite skip_stay by assumption. replace (c =? 93)%N with false by (symmetry; apply N.eqb_neq; assumption).
      change (c :: r ++ json_newline i l ++ 93%N :: rest) with ((c :: r) ++ json_newline i l ++ 93%N :: rest). rewrite <- E.
      rewrite HI; [reflexivity|discriminate|apply newline_white|lia].
    - destruct d as [|x d]; [reflexivity|]. rewrite dumps_obj in *. cbn [length] in Hf. rewrite !app_length in Hf. cbn [length] in Hf.
      cbn [app read_value]. rewrite skip_stay by reflexivity. cbn [N.eqb Pos.eqb]. rewrite <- !app_assoc. cbn [app].
      destruct (join_head (member (S l)) (json_comma i (S l)) (sort_items (x :: d))) as [c [r [E [C1 [C2 C3]]]]]; [apply sort_nonempty|intros m; exists 34%N; eexists; split; [reflexivity|split; [reflexivity|split; discriminate]]|].
      rewrite skip_app by apply newline_white. rewrite E. cbn [app]. rewrite skip_stay by assumption. replace (c =? 125)%N with false by (symmetry; apply N.eqb_neq; assumption).
      change (c :: r ++ json_newline i l ++ 125%N :: rest) with ((c :: r) ++ json_newline i l ++ 125%N :: rest). rewrite <- E.
      rewrite HM; [|apply sort_nonempty|apply newline_white|lia].
      change (canon (JObj (x :: d))) with (JObj (sort_items (map (fun m => (fst m, canon (snd m))) (x :: d)))). rewrite sort_map. reflexivity.
  Qed.

  Theorem reads : forall f, value_reads f /\ items_read f /\ members_read f.
  Proof.
    induction f as [|f [IV [II IM]]].
    - split; [intros v l rest H; lia|]. split; [intros a l l' w rest _ _ H; lia|intros d l l' w rest _ _ H; lia].
    - split; [apply value_step; assumption|]. split; [apply items_step; assumption|apply members_step; assumption].
  Qed.
  Theorem json_read_dumps : forall v l, json_read (dumps l v) = Some (canon v).
  Proof.
    intros v l. unfold json_read. destruct (reads (S (length (dumps l v)))) as [HV _]. specialize (HV v l []). rewrite app_nil_r in HV. rewrite HV; [reflexivity|lia|exact I].
  Qed.
End Text.

(** ** The canonical value is the value up to order *)
Lemma jval_induction : forall (P : jval -> Prop), P JNull -> (forall b, P (JBool b)) -> (forall z, P (JNum z)) -> (forall s, P (JStr s)) ->
  (forall l, (forall v, In v l -> P v) -> P (JArr l)) -> (forall d, (forall k v, In (k, v) d -> P v) -> P (JObj d)) -> forall v, P v.
Proof.
  intros P H1 H2 H3 H4 H5 H6. fix F 1. intros [|b|z|s|l|d]; [exact H1|apply H2|apply H3|apply H4| |].
  - apply H5. induction l as [|x l IH]; intros v Hv; [contradiction|]. destruct Hv as [<-|Hv]; [apply F|apply IH; exact Hv].
  - apply H6. induction d as [|[k' x] d IH]; intros k v Hv; [contradiction|]. destruct Hv as [Hv|Hv]; [injection Hv as _ <-; apply F|apply (IH k v); exact Hv].
Qed.
Lemma canon_same : forall v, same_value v (canon v).
Proof.
  apply jval_induction; intros; cbn [canon]; try constructor.
  - induction l as [|x l IH]; cbn [map]; constructor; [apply H; left; reflexivity|]. apply IH. intros v Hv. apply H. right. assumption.
  - apply sj_obj with (e := sort_items d); [symmetry; apply sort_items_perm|]. rewrite sort_map.
    assert (G : forall k v, In (k, v) (sort_items d) -> same_value v (canon v)) by (intros k v Hv; apply (H k v); apply (proj1 (sort_items_In (k, v) d)); assumption).
    induction (sort_items d) as [|[k v] e IH]; cbn [map]; constructor; [split; [reflexivity|]; apply (G k v); left; reflexivity|]. apply IH. intros k' v' Hv'. apply (G k' v'). right. assumption.
Qed.
