(** The exports: csv, XML, TEI and JSON. *)
From Verif Require Import Py TokenModel TokenSpec TokenProof SuffixModel IndexModel GraphModel AlignModel TableModel NearModel ExportModel
  CollateModel Lib GraphSpec GraphProof MergeProof RankProof TableSpec TableProof SuffixProof IndexProof BlockText InstProof CubeProof
  AlignProof AlignerProof CollateProof JoinProof CollateSpec ResultProof ErrorProof FactsProof OutputProof PlainProof StageProof NearProof ExportSpec.
From Coq Require Import Permutation Relations QArith Sorted.
Open Scope list_scope.
Open Scope nat_scope.

(** ** Texts *)
Lemma token_t_ok : forall tk s, token_t tk = Ok s <-> dget str_eqb (lit "t") (tk_data tk) = Some (JStr s).
Proof.
  intros tk s. unfold token_t, dgetE. destruct (dget str_eqb (lit "t") (tk_data tk)) as [v|]; cbn [bind].
  - destruct v; split; intros H; try discriminate; congruence.
  - split; discriminate.
Qed.
Lemma cell_text_ok : forall ts s, cell_text ts = Ok s -> text_of ts s.
Proof.
  intros ts s H. unfold cell_text in H. apply bind_ok in H as [l [H1 H2]]. injection H2 as <-. exists l. split; [|reflexivity].
  apply mapM_Forall2 in H1. induction H1 as [|a b la lb E F IH]; constructor; [apply token_t_ok; assumption|assumption].
Qed.

Lemma text_of_fun : forall ts s1 s2, text_of ts s1 -> text_of ts s2 -> s1 = s2.
Proof.
  intros ts s1 s2 [l1 [F1 ->]] [l2 [F2 ->]]. f_equal. revert l2 F2. induction F1 as [|a b la lb E F IH]; intros l2 F2; inversion F2; subst; [reflexivity|].
  f_equal; [congruence|auto].
Qed.

(** ** Line breaks *)
Lemma un_newlines : forall s, universal_newlines s = newlines s.
Proof.
  assert (G : forall n s, length s <= n -> universal_newlines s = newlines s); [|intros s; apply (G _ s (Nat.le_refl _))].
  induction n as [|n IH]; intros [|c s] L; try reflexivity; cbn [length] in L; [lia|].
  cbn [universal_newlines]. unfold c_cr, c_lf. destruct (N.eqb_spec c 13) as [->|N].
  - destruct s as [|d s]; [reflexivity|]. destruct (N.eqb_spec d 10) as [->|N].
    + cbn [newlines]. rewrite IH by (cbn [length] in L; lia). reflexivity.
    + rewrite IH by lia. cbn [newlines]. destruct d as [|p]; [reflexivity|]. repeat (destruct p as [p|p|]; try reflexivity). congruence.
  - rewrite IH by lia. cbn [newlines]. destruct c as [|p]; [reflexivity|]. repeat (destruct p as [p|p|]; try reflexivity). congruence.
Qed.

Lemma newlines_id : forall s, ~ In 13%N s -> newlines s = s.
Proof.
  intros s. rewrite <- un_newlines. induction s as [|c s IH]; intros N; [reflexivity|]. cbn [universal_newlines]. cbn [In] in N.
  destruct (N.eqb_spec c c_cr) as [->|E]; [unfold c_cr in N; tauto|]. rewrite IH by tauto. reflexivity.
Qed.

(** ** csv *)
Definition quote_all (s : str) : str := flat_map (fun c => if N.eqb c c_quote then [c_quote; c_quote] else [c]) s.

Lemma un_plain : forall s r, ~ In 13%N s -> universal_newlines (s ++ r) = s ++ universal_newlines r.
Proof.
  induction s as [|c s IH]; intros r N; [reflexivity|]. cbn [app universal_newlines]. cbn [In] in N.
  destruct (N.eqb_spec c c_cr) as [->|E]; [unfold c_cr in N; tauto|]. rewrite IH by tauto. reflexivity.
Qed.
Lemma un_cons : forall c r, c <> 13%N -> universal_newlines (c :: r) = c :: universal_newlines r.
Proof. intros c r N. cbn [universal_newlines]. destruct (N.eqb_spec c c_cr) as [->|E]; [unfold c_cr in N; tauto|reflexivity]. Qed.

Lemma un_quoted : forall s r, universal_newlines (quote_all s ++ 34%N :: r) = quote_all (newlines s) ++ 34%N :: universal_newlines r.
Proof.
  assert (G : forall n s r, length s <= n -> universal_newlines (quote_all s ++ 34%N :: r) = quote_all (universal_newlines s) ++ 34%N :: universal_newlines r).
  - induction n as [|n IH]; intros [|c s] r L; try (cbn [quote_all flat_map app]; apply un_cons; discriminate); cbn [length] in L; [lia|].
    unfold quote_all in *. cbn [flat_map]. destruct (N.eqb_spec c c_quote) as [->|NQ].
    + rewrite <- app_assoc. cbn [app]. rewrite un_cons by discriminate. rewrite un_cons by discriminate. rewrite IH by lia.
      rewrite (un_cons c_quote s) by discriminate. cbn [flat_map]. rewrite N.eqb_refl. reflexivity.
    + rewrite <- app_assoc. cbn [app]. destruct (N.eqb_spec c 13) as [->|NC].
      * cbn [universal_newlines]. change (13 =? c_cr)%N with true. cbv iota. destruct s as [|d s].
        -- cbn [flat_map app]. change (34 =? c_lf)%N with false. cbv iota. rewrite un_cons by discriminate. reflexivity.
        -- cbn [flat_map]. destruct (N.eqb_spec d c_quote) as [->|NQ2].
           ++ cbn [app]. change (c_quote =? c_lf)%N with false. cbv iota.
              pose proof (IH (c_quote :: s) r ltac:(cbn [length] in *; lia)) as X. cbn [flat_map] in X. rewrite N.eqb_refl in X. cbn [app] in X. rewrite X. reflexivity.
           ++ cbn [app]. destruct (N.eqb_spec d c_lf) as [->|NL].
              ** rewrite IH by (cbn [length] in L; lia). reflexivity.
              ** pose proof (IH (d :: s) r ltac:(cbn [length] in *; lia)) as X. cbn [flat_map] in X.
                 destruct (N.eqb_spec d c_quote) as [->|_]; [congruence|]. cbn [app] in X. rewrite X. reflexivity.
      * rewrite un_cons by assumption. rewrite IH by lia. rewrite (un_cons c s) by assumption. cbn [flat_map].
        destruct (N.eqb_spec c c_quote) as [->|_]; [congruence|]. reflexivity.
  - intros s r. rewrite <- un_newlines. apply (G (length s)). lia.
Qed.

Lemma un_crlf : forall s rest, universal_newlines (s ++ [c_cr; c_lf] ++ rest) = universal_newlines (s ++ [c_cr; c_lf]) ++ universal_newlines rest.
Proof.
  assert (G : forall n s rest, length s <= n -> universal_newlines (s ++ [c_cr; c_lf] ++ rest) = universal_newlines (s ++ [c_cr; c_lf]) ++ universal_newlines rest).
  - induction n as [|n IH]; intros [|c s] rest L; try reflexivity; cbn [length] in L; [lia|]. cbn [app universal_newlines].
    destruct (N.eqb c c_cr).
    + destruct s as [|d s]; [reflexivity|]. cbn [app]. destruct (N.eqb d c_lf).
      * cbn [app]. f_equal. apply (IH s). cbn [length] in L. lia.
      * cbn [app]. f_equal. apply (IH (d :: s)). lia.
    + cbn [app]. f_equal. apply (IH s). lia.
  - intros s rest. apply (G (length s)). lia.
Qed.

Section Csv.
  Variable delim : N.
  Hypothesis D1 : delim <> 34%N.
  Hypothesis D2 : delim <> 10%N.
  Hypothesis D3 : delim <> 13%N.

  Definition stop (c : N) : Prop := c = delim \/ c = 10%N.
  (** What the reader does at the end of a field. *)
  Definition after_field (row : list str) (field : str) (c : N) (rest : str) : list (list str) :=
    if N.eqb c delim then csv_reader delim AtStart (row ++ [field]) [] rest
    else (row ++ [field]) :: csv_reader delim AtStart [] [] rest.

  Lemma stop_field : forall st row field c rest, stop c -> st = InPlain \/ st = AfterQuote \/ (st = AtStart /\ (row <> [] \/ c = delim)) ->
    csv_reader delim st row field (c :: rest) = after_field row field c rest.
  Proof.
    intros st row field c rest S H. unfold after_field. cbn [csv_reader].
    assert (Q : N.eqb c 34 = false) by (apply N.eqb_neq; destruct S; subst; [assumption|discriminate]).
    destruct S as [->| ->].
    - rewrite Q, N.eqb_refl. destruct H as [->|[->|[-> _]]]; reflexivity.
    - rewrite Q. destruct (N.eqb_spec 10 delim) as [E|_]; [congruence|]. rewrite N.eqb_refl.
      destruct H as [->|[->|[-> [H|H]]]]; cbn [csv_record]; try reflexivity; [destruct row; [congruence|reflexivity]|congruence].
  Qed.

  Lemma read_quoted : forall s row field rest,
    csv_reader delim InQuoted row field (quote_all s ++ 34%N :: rest) = csv_reader delim AfterQuote row (field ++ s) rest.
  Proof.
    induction s as [|c s IH]; intros row field rest.
    - cbn [quote_all flat_map app csv_reader]. rewrite N.eqb_refl, app_nil_r. reflexivity.
    - unfold quote_all in *. cbn [flat_map]. destruct (N.eqb_spec c c_quote) as [->|N].
      + cbn [app csv_reader]. change (c_quote =? 34)%N with true. cbv iota. rewrite IH, <- app_assoc. reflexivity.
      + cbn [app csv_reader]. destruct (N.eqb_spec c 34) as [->|_]; [exfalso; apply N; reflexivity|]. rewrite IH, <- app_assoc. reflexivity.
  Qed.

  Definition ordinary (s : str) : Prop := Forall (fun c => csv_special delim c = false) s.
  Lemma special_false : forall c, csv_special delim c = false -> c <> delim /\ c <> 34%N /\ c <> 13%N /\ c <> 10%N.
  Proof.
    intros c H. unfold csv_special, c_quote, c_cr, c_lf in H. apply orb_false_iff in H as [H H4]. apply orb_false_iff in H as [H H3].
    apply orb_false_iff in H as [H1 H2]. apply N.eqb_neq in H1, H2, H3, H4. auto.
  Qed.

  Lemma read_plain : forall s st row field rest, ordinary s -> s <> [] -> st = AtStart \/ st = InPlain ->
    csv_reader delim st row field (s ++ rest) = csv_reader delim InPlain row (field ++ s) rest.
  Proof.
    induction s as [|c s IH]; intros st row field rest O N H; [congruence|]. inversion O as [|? ? O1 O2]; subst.
    apply special_false in O1 as [S1 [S2 [S3 S4]]]. cbn [app csv_reader].
    apply N.eqb_neq in S1, S2, S3, S4. rewrite S1, S2, S3, S4.
    assert (X : csv_reader delim InPlain row (field ++ [c]) (s ++ rest) = csv_reader delim InPlain row (field ++ c :: s) rest).
    { destruct s as [|d s]; [reflexivity|]. rewrite IH by (auto; discriminate). rewrite <- app_assoc. reflexivity. }
    destruct H as [->| ->]; exact X.
  Qed.

  Lemma ordinary_no_cr : forall s, ordinary s -> ~ In 13%N s.
  Proof. intros s O I. unfold ordinary in O. rewrite Forall_forall in O. apply O in I. apply special_false in I. tauto. Qed.

  Definition field_text (f : option str) : str := match f with Some s => s | None => [] end.

  (** Reading one field of the translated text. *)
  Lemma read_field : forall single f row c rest, stop c -> (row <> [] \/ c = delim \/ single = true) ->
    csv_reader delim AtStart row [] (universal_newlines (csv_field delim single f ++ c :: rest)) =
    after_field row (newlines (field_text f)) c (universal_newlines rest).
  Proof.
    intros single f row c rest S H. unfold csv_field. fold (field_text f). set (s := field_text f).
    assert (NC : c <> 13%N) by (destruct S; subst; [assumption|discriminate]).
    destruct (existsb (csv_special delim) s || (single && match s with [] => true | _ => false end)) eqn:Q.
    - cbn [app]. rewrite un_cons by discriminate. rewrite <- app_assoc. cbn [app]. fold (quote_all s). unfold c_quote at 2. rewrite un_quoted.
      cbn [csv_reader]. change (c_quote =? 34)%N with true. cbv iota. rewrite read_quoted. cbn [app]. rewrite un_cons by assumption.
      apply stop_field; auto.
    - apply orb_false_iff in Q as [Q1 Q2].
      assert (O : ordinary s). { unfold ordinary. rewrite Forall_forall. intros x Hx. destruct (csv_special delim x) eqn:E; [|reflexivity].
        assert (existsb (csv_special delim) s = true) by (apply existsb_exists; exists x; auto). congruence. }
      rewrite un_plain by (apply ordinary_no_cr; assumption). rewrite newlines_id by (apply ordinary_no_cr; assumption).
      rewrite un_cons by assumption. destruct s as [|d s'] eqn:Es.
      + cbn [app]. apply stop_field; [assumption|]. right; right. split; [reflexivity|]. rewrite andb_true_r in Q2. subst single.
        destruct H as [H|[H|H]]; auto. discriminate.
      + rewrite (read_plain (d :: s')); [|assumption|discriminate|auto]. cbn [app]. apply stop_field; auto.
  Qed.

  Lemma read_fields : forall single fs row rest, fs <> [] -> (row = [] -> single = true <-> length fs = 1) ->
    csv_reader delim AtStart row [] (universal_newlines (str_join [delim] (map (csv_field delim single) fs) ++ [13%N; 10%N] ++ rest)) =
    (row ++ map (fun f => newlines (field_text f)) fs) :: csv_reader delim AtStart [] [] (universal_newlines rest).
  Proof.
    intros single. induction fs as [|f fs IH]; intros row rest N H; [congruence|]. destruct fs as [|f2 fs].
    - cbn [map str_join].
      assert (U : universal_newlines (csv_field delim single f ++ [13%N; 10%N] ++ rest) = universal_newlines (csv_field delim single f ++ 10%N :: rest)).
      { unfold csv_field. fold (field_text f). set (s := field_text f).
        destruct (existsb (csv_special delim) s || (single && match s with [] => true | _ => false end)) eqn:Q.
        - cbn [app]. rewrite !un_cons by discriminate. rewrite <- !app_assoc. cbn [app]. fold (quote_all s). unfold c_quote at 2 4. rewrite !un_quoted. reflexivity.
        - apply orb_false_iff in Q as [Q1 _]. assert (~ In 13%N s).
          { intros I. assert (existsb (csv_special delim) s = true); [|congruence]. apply existsb_exists. exists 13%N. split; [assumption|].
            unfold csv_special. rewrite !orb_true_iff. auto. }
          rewrite (un_plain s (10%N :: rest)) by assumption. rewrite un_plain by assumption. reflexivity. }
      rewrite U. rewrite read_field; [|right; reflexivity|].
      + unfold after_field. destruct (N.eqb_spec 10 delim) as [E|_]; [congruence|]. reflexivity.
      + destruct row; [|left; discriminate]. right; right. apply H; reflexivity.
    - change (str_join [delim] (map (csv_field delim single) (f :: f2 :: fs))) with
        (csv_field delim single f ++ [delim] ++ str_join [delim] (map (csv_field delim single) (f2 :: fs))).
      rewrite <- !app_assoc. cbn [app]. rewrite read_field; [|left; reflexivity|right; left; reflexivity].
      unfold after_field. rewrite N.eqb_refl. cbn [app] in IH.
      rewrite (IH (row ++ [newlines (field_text f)])); [|discriminate|]. 
      + rewrite <- app_assoc. reflexivity.
      + intros E. destruct row; discriminate.
  Qed.

  Lemma read_rows : forall rows, Forall (fun r => r <> []) rows ->
    csv_read delim (flat_map (fun r => universal_newlines (csv_row delim r)) rows) = map (map (fun f => newlines (field_text f))) rows.
  Proof.
    unfold csv_read. induction rows as [|r rows IH]; intros F; [reflexivity|]. inversion F as [|? ? F1 F2]; subst. cbn [flat_map map].
    specialize (IH F2).
    set (tail := flat_map (csv_row delim) rows).
    assert (T : flat_map (fun r => universal_newlines (csv_row delim r)) rows = universal_newlines tail).
    { unfold tail. clear. induction rows as [|q rows IH]; [reflexivity|]. cbn [flat_map]. rewrite IH.
      unfold csv_row at 1 3. rewrite <- app_assoc, un_crlf. reflexivity. }
    rewrite T in *. rewrite <- IH. unfold csv_row. rewrite <- un_crlf. change [c_cr; c_lf] with [13%N; 10%N].
    rewrite read_fields; [reflexivity|assumption|]. intros _. apply Nat.eqb_eq.
  Qed.
End Csv.

(** ** XML *)
Lemma read_escaped : forall s rest, xml_reader InText (xml_escape_text s ++ rest) = chars s ++ xml_reader InText rest.
Proof.
  unfold xml_escape_text, chars. induction s as [|c s IH]; intros rest; [reflexivity|]. cbn [flat_map map app].
  rewrite <- IH, <- app_assoc. destruct (N.eqb_spec c 38) as [->|N1]; [reflexivity|]. destruct (N.eqb_spec c 60) as [->|N2]; [reflexivity|].
  destruct (N.eqb_spec c 62) as [->|N3]; [reflexivity|]. cbn [app xml_reader].
  apply N.eqb_neq in N1, N2, N3. rewrite N1, N2, N3. reflexivity.
Qed.
Lemma read_minidom : forall s rest, xml_reader InText (minidom_escape s ++ rest) = chars s ++ xml_reader InText rest.
Proof.
  unfold minidom_escape, chars. induction s as [|c s IH]; intros rest; [reflexivity|]. cbn [flat_map map app].
  rewrite <- IH, <- app_assoc. destruct (N.eqb_spec c 38) as [->|N1]; [reflexivity|]. destruct (N.eqb_spec c 60) as [->|N2]; [reflexivity|].
  destruct (N.eqb_spec c 34) as [->|N3]; [reflexivity|]. destruct (N.eqb_spec c 62) as [->|N4]; [reflexivity|]. cbn [app xml_reader].
  apply N.eqb_neq in N1, N2, N4. rewrite N1, N2, N4. reflexivity.
Qed.

Lemma value_escaped : forall s, attribute_value None (xml_escape_attr s) = s.
Proof.
  unfold xml_escape_attr. induction s as [|c s IH]; [reflexivity|]. cbn [flat_map].
  destruct (N.eqb_spec c 38) as [->|N1]; [exact (f_equal (cons _) IH)|].
  destruct (N.eqb_spec c 60) as [->|N2]; [exact (f_equal (cons _) IH)|].
  destruct (N.eqb_spec c 62) as [->|N3]; [exact (f_equal (cons _) IH)|].
  destruct (N.eqb_spec c 34) as [->|N4]; [exact (f_equal (cons _) IH)|].
  destruct (N.eqb_spec c 13) as [->|N5]; [exact (f_equal (cons _) IH)|].
  destruct (N.eqb_spec c 10) as [->|N6]; [exact (f_equal (cons _) IH)|].
  destruct (N.eqb_spec c 9) as [->|N7]; [exact (f_equal (cons _) IH)|].
  cbn [app attribute_value]. apply N.eqb_neq in N1. rewrite N1, IH. reflexivity.
Qed.
Lemma value_minidom : forall s, attribute_value None (minidom_escape s) = s.
Proof.
  unfold minidom_escape. induction s as [|c s IH]; [reflexivity|]. cbn [flat_map].
  destruct (N.eqb_spec c 38) as [->|N1]; [exact (f_equal (cons _) IH)|].
  destruct (N.eqb_spec c 60) as [->|N2]; [exact (f_equal (cons _) IH)|].
  destruct (N.eqb_spec c 34) as [->|N3]; [exact (f_equal (cons _) IH)|].
  destruct (N.eqb_spec c 62) as [->|N4]; [exact (f_equal (cons _) IH)|].
  cbn [app attribute_value]. apply N.eqb_neq in N1. rewrite N1, IH. reflexivity.
Qed.

(** Characters that end a tag or an attribute. *)
Definition tame (s : str) : Prop := ~ In 62%N s /\ ~ In 34%N s.
Lemma tame_app : forall a b, tame a -> tame b -> tame (a ++ b).
Proof. intros a b [A1 A2] [B1 B2]. split; rewrite in_app_iff; tauto. Qed.
Lemma tame_flat_map : forall (f : N -> str) s, (forall c, tame (f c)) -> tame (flat_map f s).
Proof. intros f s H. induction s as [|c s IH]; [split; intros []|]. cbn [flat_map]. apply tame_app; auto. Qed.
Ltac tame_const := split; cbn [lit In]; intros H; repeat (destruct H as [H|H]; [discriminate|]); contradiction.
Lemma tame_one : forall c, c <> 62%N -> c <> 34%N -> tame [c].
Proof. intros c N1 N2. split; intros [H|[]]; auto. Qed.
Lemma tame_attr : forall s, tame (xml_escape_attr s).
Proof.
  intros s. apply tame_flat_map. intros c. 
  destruct (N.eqb_spec c 38) as [->|N1]; [tame_const|]. destruct (N.eqb_spec c 60) as [->|N2]; [tame_const|].
  destruct (N.eqb_spec c 62) as [->|N3]; [tame_const|]. destruct (N.eqb_spec c 34) as [->|N4]; [tame_const|].
  destruct (N.eqb_spec c 13) as [->|N5]; [tame_const|]. destruct (N.eqb_spec c 10) as [->|N6]; [tame_const|].
  destruct (N.eqb_spec c 9) as [->|N7]; [tame_const|]. apply tame_one; assumption.
Qed.
Lemma tame_minidom : forall s, tame (minidom_escape s).
Proof.
  intros s. apply tame_flat_map. intros c. 
  destruct (N.eqb_spec c 38) as [->|N1]; [tame_const|]. destruct (N.eqb_spec c 60) as [->|N2]; [tame_const|].
  destruct (N.eqb_spec c 34) as [->|N3]; [tame_const|]. destruct (N.eqb_spec c 62) as [->|N4]; [tame_const|].
  apply tame_one; assumption.
Qed.

Lemma read_tag_aux : forall t p rest, ~ In 62%N t -> xml_reader (InTag p) (t ++ 62%N :: rest) = tag (p ++ t) ++ xml_reader InText rest.
Proof.
  induction t as [|c t IH]; intros p rest N.
  - cbn [app xml_reader]. rewrite N.eqb_refl, app_nil_r. reflexivity.
  - cbn [app xml_reader]. cbn [In] in N. destruct (N.eqb_spec c 62) as [->|_]; [tauto|]. rewrite IH by tauto. rewrite <- app_assoc. reflexivity.
Qed.
Lemma read_tag : forall t rest, ~ In 62%N t -> xml_reader InText (60%N :: t ++ 62%N :: rest) = tag t ++ xml_reader InText rest.
Proof. intros t rest N. cbn [xml_reader]. change (60 =? 60)%N with true. cbv iota. apply (read_tag_aux t []). assumption. Qed.

Lemma pieces_app : forall sep a b, ~ In sep a -> pieces sep (a ++ sep :: b) = a :: pieces sep b.
Proof.
  intros sep a b. induction a as [|c a IH]; intros N; cbn [app pieces]; [rewrite N.eqb_refl; reflexivity|].
  cbn [In] in N. destruct (N.eqb_spec c sep) as [->|_]; [tauto|]. rewrite IH by tauto. reflexivity.
Qed.

Lemma tag_rdg : forall a, tame a -> tag (lit "rdg wit=" ++ 34%N :: a ++ [34%N]) = [Begin (lit "rdg") [(lit "wit", attribute_value None a)]].
Proof.
  intros a [_ T]. unfold tag.
  assert (R : rev (lit "rdg wit=" ++ 34%N :: a ++ [34%N]) = 34%N :: rev a ++ 34%N :: rev (lit "rdg wit=")).
  { rewrite rev_app_distr. cbn [rev]. rewrite rev_app_distr. cbn [rev app]. rewrite <- app_assoc. reflexivity. }
  rewrite R. change (span (fun c => negb (N.eqb c 32 || N.eqb c 47)) (lit "rdg wit=" ++ 34%N :: a ++ [34%N])) with (lit "rdg", lit " wit=" ++ 34%N :: a ++ [34%N]).
  cbv beta iota. rewrite (pieces_app 34 (lit " wit=")) by (cbn; intuition discriminate). rewrite pieces_app by assumption. reflexivity.
Qed.
Lemma tag_rdg_empty : forall a, tame a -> tag (lit "rdg wit=" ++ 34%N :: a ++ 34%N :: lit " /") =
  [Begin (lit "rdg") [(lit "wit", attribute_value None a)]; End (lit "rdg")].
Proof.
  intros a [_ T]. unfold tag.
  assert (R : rev (lit "rdg wit=" ++ 34%N :: a ++ 34%N :: lit " /") = 47%N :: 32%N :: 34%N :: rev a ++ 34%N :: rev (lit "rdg wit=")).
  { rewrite rev_app_distr. cbn [rev]. rewrite rev_app_distr. cbn [rev lit app]. rewrite <- app_assoc. reflexivity. }
  rewrite R. change (span (fun c => negb (N.eqb c 32 || N.eqb c 47)) (lit "rdg wit=" ++ 34%N :: a ++ 34%N :: lit " /")) with (lit "rdg", lit " wit=" ++ 34%N :: a ++ 34%N :: lit " /").
  cbv beta iota. rewrite (pieces_app 34 (lit " wit=")) by (cbn; intuition discriminate). rewrite pieces_app by assumption. reflexivity.
Qed.

Lemma rdg_reads : forall a text v rest, tame a -> (forall rest, xml_reader InText (text ++ rest) = chars v ++ xml_reader InText rest) ->
  xml_reader InText (lit "<rdg wit=" ++ dq ++ a ++ dq ++ lit ">" ++ text ++ lit "</rdg>" ++ rest) =
  element (lit "rdg") [(lit "wit", attribute_value None a)] (chars v) ++ xml_reader InText rest.
Proof.
  intros a text v rest T H.
  replace (lit "<rdg wit=" ++ dq ++ a ++ dq ++ lit ">" ++ text ++ lit "</rdg>" ++ rest)
    with (60%N :: (lit "rdg wit=" ++ 34%N :: a ++ [34%N]) ++ 62%N :: text ++ 60%N :: lit "/rdg" ++ 62%N :: rest).
  - rewrite read_tag.
    + rewrite tag_rdg by assumption. rewrite H. rewrite read_tag by (cbn; intuition discriminate).
      unfold element. cbn [app]. f_equal. rewrite <- app_assoc. reflexivity.
    + rewrite in_app_iff. cbn [In]. rewrite in_app_iff. destruct T. cbn. intuition discriminate.
  - unfold dq. cbn [lit app]. do 10 f_equal. rewrite <- app_assoc. reflexivity.
Qed.

Lemma xml_rdg_reads : forall w t rest, xml_reader InText (xml_rdg w t ++ rest) =
  element (lit "rdg") [(lit "wit", lit "#" ++ w)] (chars t) ++ xml_reader InText rest.
Proof.
  intros w t rest. unfold xml_rdg. destruct t as [|c t].
  - replace ((lit "<rdg wit=" ++ dq ++ xml_escape_attr (lit "#" ++ w) ++ dq ++ lit " />") ++ rest)
      with (60%N :: (lit "rdg wit=" ++ 34%N :: xml_escape_attr (lit "#" ++ w) ++ 34%N :: lit " /") ++ 62%N :: rest).
    + rewrite read_tag.
      * rewrite tag_rdg_empty by apply tame_attr. rewrite value_escaped. reflexivity.
      * pose proof (proj1 (tame_attr (lit "#" ++ w))) as T. revert T. generalize (xml_escape_attr (lit "#" ++ w)). intros a T.
        rewrite in_app_iff. cbn [In]. rewrite in_app_iff. cbn. intuition discriminate.
    + unfold dq. cbn [lit app]. do 10 f_equal. rewrite <- !app_assoc. reflexivity.
  - rewrite <- !app_assoc. rewrite (rdg_reads (xml_escape_attr (lit "#" ++ w)) (xml_escape_text (c :: t)) (c :: t) rest (tame_attr _)).
    + rewrite value_escaped. reflexivity.
    + intros r. apply read_escaped.
Qed.

Lemma read_app : forall body ev rest, (forall r, xml_reader InText (body ++ r) = ev ++ xml_reader InText r) ->
  xml_reader InText ((lit "<app>" ++ body ++ lit "</app>") ++ rest) = element (lit "app") [] ev ++ xml_reader InText rest.
Proof.
  intros body ev rest H. rewrite <- !app_assoc.
  change (xml_reader InText (lit "<app>" ++ body ++ lit "</app>" ++ rest)) with (Begin (lit "app") [] :: xml_reader InText (body ++ lit "</app>" ++ rest)).
  rewrite H. unfold element. cbn [app]. f_equal. rewrite <- app_assoc. f_equal.
Qed.

Lemma flat_map_reads : forall {A} (f : A -> str) (g : A -> list event) l rest,
  (forall a r, In a l -> xml_reader InText (f a ++ r) = g a ++ xml_reader InText r) ->
  xml_reader InText (flat_map f l ++ rest) = flat_map g l ++ xml_reader InText rest.
Proof.
  intros A f g l. induction l as [|a l IH]; intros rest H; [reflexivity|]. cbn [flat_map]. rewrite <- !app_assoc.
  rewrite (H a) by (left; reflexivity). rewrite IH by (intros b r Hb; apply H; right; assumption). reflexivity.
Qed.

Lemma xml_app_reads : forall rs rest, xml_reader InText (xml_app rs ++ rest) =
  element (lit "app") [] (flat_map (fun r => element (lit "rdg") [(lit "wit", lit "#" ++ fst r)] (chars (snd r))) rs) ++ xml_reader InText rest.
Proof.
  intros rs rest. unfold xml_app. destruct rs as [|x rs]; [reflexivity|]. apply read_app. intros r. apply flat_map_reads.
  intros [w t] r' _. apply xml_rdg_reads.
Qed.

Lemma xml_reads : forall cols, xml_events (lit "<root>" ++ flat_map xml_app cols ++ lit "</root>") = xml_document cols.
Proof.
  intros cols. unfold xml_events, xml_document.
  change (xml_reader InText (lit "<root>" ++ flat_map xml_app cols ++ lit "</root>")) with
    (Begin (lit "root") [] :: xml_reader InText (flat_map xml_app cols ++ lit "</root>")).
  rewrite (flat_map_reads _ (fun rs => element (lit "app") []
       (flat_map (fun r => element (lit "rdg") [(lit "wit", lit "#" ++ fst r)] (chars (snd r))) rs))).
  - reflexivity.
  - intros rs r _. apply xml_app_reads.
Qed.

Lemma increasing_sorted : forall l, StronglySorted StageProof.str_lt l -> increasing l.
Proof.
  intros l S. induction S as [|a l S IH F]; [exact I|]. split; [|assumption]. rewrite Forall_forall in *. intros b Hb. apply str_ltb_ok. apply F. assumption.
Qed.

Lemma column_readings_of : forall col rs, NoDup (map fst (c_cells col)) -> column_readings col = Ok rs -> readings_of col rs.
Proof.
  intros col rs ND H. unfold column_readings in H. apply mapM_Forall2 in H.
  assert (K : map fst rs = map fst (sort_items (c_cells col))).
  { clear ND. induction H as [|[sg ts] [sg' s] la lb E F IH]; [reflexivity|]. apply bind_ok in E as [x [_ E]]. injection E as <- <-. cbn [map fst]. f_equal. exact IH. }
  split; [|split].
  - rewrite K. apply increasing_sorted. apply sort_items_sorted. assumption.
  - intros sg. rewrite K. rewrite (Permutation_map fst (sort_items_perm (c_cells col))). reflexivity.
  - intros sg s Hi. assert (X : exists ts, In (sg, ts) (sort_items (c_cells col)) /\ cell_text ts = Ok s).
    { clear ND K. induction H as [|[sg' ts] b la lb E F IH]; [contradiction|]. destruct Hi as [->|Hi].
      - apply bind_ok in E as [x [E1 E2]]. injection E2 as <- <-. exists ts. split; [left; reflexivity|assumption].
      - destruct (IH Hi) as [ts' [A B]]. exists ts'. split; [right; assumption|assumption]. }
    destruct X as [ts [X1 X2]]. exists ts. rewrite sort_items_In in X1. split; [assumption|]. apply cell_text_ok. assumption.
Qed.

Lemma export_xml_spec : forall t s, Forall (fun col => NoDup (map fst (c_cells col))) (t_columns t) -> export_xml t = Ok s ->
  exists cols, Forall2 readings_of (t_columns t) cols /\ xml_events s = xml_document cols.
Proof.
  intros t s ND H. unfold export_xml in H. apply bind_ok in H as [cols [H1 H2]]. injection H2 as <-. exists cols. split; [|apply xml_reads].
  apply mapM_Forall2 in H1. revert ND H1. generalize (t_columns t). intros l ND F.
  induction F as [|a b la lb E F IH]; constructor; inversion ND; subst; [apply column_readings_of; assumption|auto].
Qed.

(** ** TEI *)
Lemma span_none : forall {A} (p : A -> bool) l, (forall c l', l = c :: l' -> p c = false) -> span p l = ([], l).
Proof. intros A p [|c l] H; [reflexivity|]. cbn [span]. rewrite (H c l eq_refl). reflexivity. Qed.
Lemma span_prefix : forall {A} (p : A -> bool) a b, Forall (fun c => p c = true) a -> span p (a ++ b) = (a ++ fst (span p b), snd (span p b)).
Proof.
  intros A p a b F. induction F as [|c a H F IH]; cbn [app]; [destruct (span p b); reflexivity|].
  cbn [span]. rewrite H, IH. reflexivity.
Qed.

Lemma strip_spec : forall cc s, stripped cc s (strip cc s).
Proof.
  intros cc s. unfold strip. destruct (span (iss cc) s) as [a b] eqn:E. cbn [snd].
  pose proof (span_app _ _ _ _ E) as A. pose proof (span_all _ _ _ _ E) as F. pose proof (span_next _ _ _ _ E) as N.
  destruct (rstrip_spec cc b) as [sp [B1 [B2 B3]]]. exists a, sp. split; [rewrite <- B1; exact A|]. split; [assumption|]. split; [exact B2|]. split.
  - intros c k' K. rewrite K in B1. rewrite B1 in N. cbn [app] in N. cbn in N. exact N.
  - intros c k' K. rewrite K, rev_app_distr in B3. cbn in B3. exact B3.
Qed.

Lemma stripped_fun : forall cc s k, stripped cc s k -> k = strip cc s.
Proof.
  intros cc s k [a [b [E [A [B [K1 K2]]]]]]. unfold strip. rewrite E, span_prefix by exact A. cbn [snd].
  destruct k as [|c k].
  - cbn [app]. rewrite <- (app_nil_r b) at 1. rewrite span_prefix by exact B. cbn [snd span]. reflexivity.
  - rewrite span_none.
    + cbn [snd]. unfold rstrip. rewrite rev_app_distr. rewrite span_prefix by (apply Forall_rev; exact B). cbn [snd].
      rewrite span_none; [cbn [snd]; rewrite rev_involutive; reflexivity|].
      intros d l' H. apply (K2 d (rev l')). rewrite <- (rev_involutive (c :: k)), H. reflexivity.
    + intros d l' H. cbn [app] in H. injection H as <- _. apply (K1 c k eq_refl).
Qed.

(** Grouping. *)
Record grouped (cc : cclass) (rs : list (str * str)) (d : list (str * list str)) : Prop := {
  gp_keys : NoDup (map fst d);
  gp_sigla : Permutation (flat_map snd d) (map fst rs);
  gp_some : forall k sgs, In (k, sgs) d -> sgs <> [];
  gp_in : forall sg k, (exists sgs, In (k, sgs) d /\ In sg sgs) <-> exists s, In (sg, s) rs /\ k = strip cc s
}.

Lemma group_step_perm : forall k (sg : str) (d : list (str * list str)),
  Permutation (flat_map snd (dset str_eqb k (match dget str_eqb k d with Some l => l | None => [] end ++ [sg]) d)) (flat_map snd d ++ [sg]).
Proof.
  intros k sg d. induction d as [|[k' l] d IH]; [reflexivity|]. cbn [dget dset]. destruct (str_eqb k k').
  - cbn [flat_map snd]. rewrite <- !app_assoc. apply Permutation_app_head. apply Permutation_app_comm.
  - cbn [flat_map snd]. rewrite <- app_assoc. apply Permutation_app_head. exact IH.
Qed.

Lemma group_spec : forall cc rs, grouped cc rs (tei_group cc rs).
Proof.
  intros cc rs. unfold tei_group.
  assert (G : forall l d done, grouped cc done d -> grouped cc (done ++ l) (fold_left (fun d '(sg, t) =>
               let k := strip cc t in
               let old := match dget str_eqb k d with Some l => l | None => [] end in
               dset str_eqb k (old ++ [sg]) d) l d)).
  { induction l as [|[sg t] l IH]; intros d done H; cbn [fold_left]; [rewrite app_nil_r; assumption|].
    replace (done ++ (sg, t) :: l) with ((done ++ [(sg, t)]) ++ l) by (rewrite <- app_assoc; reflexivity). apply IH. clear IH.
    cbv zeta. set (k := strip cc t). destruct H as [G1 G2 G3 G4]. constructor.
    - apply (dset_NoDup _ str_eqb_ok). assumption.
    - rewrite group_step_perm, map_app. apply Permutation_app_tail. assumption.
    - intros k' sgs Hi. apply (In_dget _ str_eqb_ok) in Hi; [|apply (dset_NoDup _ str_eqb_ok); assumption]. rewrite (dget_set _ str_eqb_ok) in Hi.
      destruct (str_eqb k k'); [injection Hi as <-; intros C; apply app_eq_nil in C as [_ C]; discriminate|].
      apply (dget_In _ str_eqb_ok) in Hi. apply (G3 k' sgs Hi).
    - intros sg' k'. split.
      + intros [sgs [Hi Hs]]. apply (In_dget _ str_eqb_ok) in Hi; [|apply (dset_NoDup _ str_eqb_ok); assumption]. rewrite (dget_set _ str_eqb_ok) in Hi.
        assert (X : (exists sgs0, In (k', sgs0) d /\ In sg' sgs0) \/ (sg' = sg /\ k' = k)).
        { destruct (str_eqb k k') eqn:E.
          - apply str_eqb_ok in E. subst k'. injection Hi as <-. apply in_app_iff in Hs as [Hs|[<-|[]]]; [|auto]. left.
            destruct (dget str_eqb k d) as [l0|] eqn:D; [|contradiction]. exists l0. split; [apply (dget_In _ str_eqb_ok); assumption|assumption].
          - left. exists sgs. split; [apply (dget_In _ str_eqb_ok); assumption|assumption]. }
        destruct X as [X|[-> ->]].
        * apply G4 in X as [s [A B]]. exists s. split; [apply in_app_iff; auto|assumption].
        * exists t. split; [apply in_app_iff; right; left; reflexivity|reflexivity].
      + intros [s [Hi K]].
        assert (X : (exists sgs0, dget str_eqb k' d = Some sgs0 /\ In sg' sgs0) \/ (sg' = sg /\ k' = k)).
        { apply in_app_iff in Hi as [Hi|[Hi|[]]]; [|injection Hi as <- <-; auto]. left.
          destruct (proj2 (G4 sg' k') (ex_intro _ s (conj Hi K))) as [sgs [A B]]. exists sgs. split; [apply (In_dget _ str_eqb_ok); assumption|assumption]. }
        destruct (str_eqb k k') eqn:E.
        * apply str_eqb_ok in E. clear K. rewrite <- E in X. rewrite <- E. eexists. split; [apply (dget_In _ str_eqb_ok); apply (dget_set_same _ str_eqb_ok)|].
          apply in_app_iff. destruct X as [[sgs0 [A B]]|[-> _]]; [left; rewrite A; assumption|right; left; reflexivity].
        * destruct X as [[sgs0 [A B]]|[-> ->]]; [|rewrite str_eqb_refl in E; discriminate].
          exists sgs0. split; [|assumption]. apply (dget_In _ str_eqb_ok). rewrite (dget_set _ str_eqb_ok), E. assumption. }
  apply (G rs [] []). constructor; [constructor|constructor|intros k sgs []|].
  intros sg k. split; [intros [sgs [[] _]]|intros [s [[] _]]].
Qed.

Definition part_of (nrows : nat) (groups : list (str * list str)) : tei_part :=
  match groups with
  | [(k, sgs)] => if length sgs =? nrows then Agreed k else Variants groups
  | _ => Variants groups
  end.

Lemma part_of_right : forall cc wits rs, wits <> [] -> NoDup wits -> NoDup (map fst rs) -> incl (map fst rs) wits ->
  part_right cc wits rs (part_of (length wits) (tei_group cc rs)).
Proof.
  intros cc wits rs NW ND NR I. destruct (group_spec cc rs) as [G1 G2 G3 G4]. set (gs := tei_group cc rs) in *.
  assert (NS : NoDup (flat_map snd gs)) by (rewrite G2; assumption).
  assert (IN : forall sg k, (exists sgs, In (k, sgs) gs /\ In sg sgs) <-> exists s, In (sg, s) rs /\ stripped cc s k).
  { intros sg k. rewrite G4. split; intros [s [A B]]; exists s; (split; [assumption|]); [subst k; apply strip_spec|apply stripped_fun; assumption]. }
  assert (V : ~ (exists k sgs, gs = [(k, sgs)] /\ length sgs = length wits) -> part_right cc wits rs (Variants gs)).
  { intros N. split; [|split; [assumption|split; [assumption|split; [assumption|assumption]]]].
    intros [k H]. apply N. exists k.
    assert (A : forall k' sgs, In (k', sgs) gs -> k' = k).
    { intros k' sgs Hi. destruct sgs as [|sg sgs]; [exfalso; apply (G3 _ _ Hi); reflexivity|].
      destruct (proj1 (G4 sg k') (ex_intro _ _ (conj Hi (or_introl eq_refl)))) as [s [Q1 Q2]].
      destruct (H sg) as [s' [P1 P2]]; [apply I; apply in_map_iff; exists (sg, s); auto|].
      apply stripped_fun in P2. subst k' k. f_equal.
      apply (In_dget _ str_eqb_ok) in Q1; [|assumption]. apply (In_dget _ str_eqb_ok) in P1; [|assumption]. congruence. }
    destruct gs as [|[k1 s1] gs'] eqn:Eg.
    - exfalso. destruct wits as [|w wits']; [congruence|]. destruct (H w (or_introl eq_refl)) as [s [P1 P2]].
      destruct (proj2 (IN w k) (ex_intro _ s (conj P1 P2))) as [sgs [[] _]].
    - assert (k1 = k) by (apply (A k1 s1); left; reflexivity). subst k1. exists s1.
      assert (gs' = []).
      { destruct gs' as [|[k2 s2] gs'']; [reflexivity|]. exfalso. assert (k2 = k) by (apply (A k2 s2); right; left; reflexivity). subst k2.
        cbn [map fst] in G1. inversion G1 as [|? ? Q _]; subst. apply Q. left. reflexivity. }
      subst gs'. split; [reflexivity|]. cbn [flat_map snd] in NS, G2. rewrite app_nil_r in NS, G2.
      apply Nat.le_antisymm.
      + apply NoDup_incl_length; [assumption|]. intros x Hx. apply I. rewrite <- G2. assumption.
      + apply NoDup_incl_length; [assumption|]. intros x Hx. destruct (H x Hx) as [s [P1 P2]]. rewrite G2. apply in_map_iff. exists (x, s). auto. }
  unfold part_of. destruct gs as [|[k sgs] [|y gs']] eqn:Eg.
  - apply V. intros [k [sgs [C _]]]. discriminate.
  - destruct (Nat.eqb_spec (length sgs) (length wits)) as [L|L].
    + intros sg Hs. apply IN. exists sgs. split; [left; reflexivity|]. cbn [flat_map snd] in NS, G2. rewrite app_nil_r in NS, G2.
      assert (Q : incl sgs wits) by (intros x Hx; apply I; rewrite <- G2; assumption).
      apply (NoDup_length_incl NS) with (2 := Q); [lia|assumption].
    + apply V. intros [k' [sgs' [C C2]]]. injection C as <- <-. congruence.
  - apply V. intros [k' [sgs' [C _]]]. discriminate.
Qed.

Lemma is_suffix_ok : forall suf s, is_suffix_of suf s = true <-> ends_with s suf.
Proof.
  intros suf s. induction s as [|c s IH]; cbn [is_suffix_of].
  - rewrite orb_false_r. split.
    + intros H. apply str_eqb_ok in H. subst suf. exists []. reflexivity.
    + intros [a E]. symmetry in E. apply app_eq_nil in E as [_ ->]. reflexivity.
  - rewrite orb_true_iff, IH. split.
    + intros [H|[a E]]; [apply str_eqb_ok in H; subst suf; exists []; reflexivity|exists (c :: a); rewrite E; reflexivity].
    + intros [a E]. destruct a as [|d a]; [left; cbn [app] in E; rewrite <- E; apply str_eqb_refl|right; injection E as -> ->; exists a; reflexivity].
Qed.

(** The three endings the program looks for: a blank and two texts that begin with a backslash. *)
Definition tei_endings : list str := [lit " "; lit "\u0009"; lit "\000a"].
Lemma tei_ws_ok : forall s, tei_ws s = true <-> exists e, In e tei_endings /\ ends_with s e.
Proof.
  intros s. unfold tei_ws. rewrite !orb_true_iff, !is_suffix_ok. unfold tei_endings. split.
  - intros [[H|H]|H]; eexists; (split; [|exact H]); cbn [In]; auto.
  - intros [e [[<-|[<-|[<-|[]]]] H]]; auto.
Qed.

(** The parts written for the columns. *)
Definition tei_right (cc : cclass) (wits : list str) (col : column) (p : tei_part * bool) : Prop :=
  exists rs, readings_of col rs /\ part_right cc wits rs (fst p) /\
    (snd p = true <-> exists sg s e, In (sg, s) rs /\ In e tei_endings /\ ends_with s e).

Definition items_of (p : tei_part * bool) : list tei_item :=
  match fst p with Agreed k => TeiText k | Variants gs => TeiApp gs end :: if snd p then [TeiText (lit " ")] else [].

Lemma increasing_NoDup : forall l, increasing l -> NoDup l.
Proof.
  induction l as [|a l IH]; intros H; [constructor|]. destruct H as [F H]. constructor; [|auto].
  intros C. rewrite Forall_forall in F. specialize (F a C). apply str_ltb_ok in F. rewrite str_ltb_irrefl in F. discriminate.
Qed.

Lemma tei_column_spec : forall cc wits col items, wits <> [] -> NoDup wits -> NoDup (map fst (c_cells col)) -> incl (map fst (c_cells col)) wits ->
  tei_column cc (length wits) col = Ok items -> exists p, items = items_of p /\ tei_right cc wits col p.
Proof.
  intros cc wits col items NW ND NC I H. unfold tei_column in H. apply bind_ok in H as [rs [H1 H2]]. injection H2 as <-.
  pose proof (column_readings_of col rs NC H1) as R. destruct R as [R1 [R2 R3]].
  exists (part_of (length wits) (tei_group cc rs), existsb (fun '(_, t) => tei_ws t) rs). split.
  - unfold items_of, part_of. cbn [fst snd]. destruct (tei_group cc rs) as [|[k sgs] [|y gs']]; [reflexivity| |reflexivity].
    destruct (length sgs =? length wits); reflexivity.
  - exists rs. split; [split; [assumption|split; assumption]|]. cbn [fst snd]. split.
    + apply part_of_right; try assumption; [apply increasing_NoDup; assumption|]. intros x Hx. apply I. apply R2. assumption.
    + rewrite existsb_exists. split.
      * intros [[sg s] [A B]]. apply tei_ws_ok in B as [e [B1 B2]]. exists sg, s, e. auto.
      * intros [sg [s [e [A [B1 B2]]]]]. exists (sg, s). split; [assumption|]. apply tei_ws_ok. exists e. auto.
Qed.

Lemma tei_rdg_reads : forall r rest, xml_reader InText (tei_rdg r ++ rest) =
  element (lit "rdg") [(lit "wit", str_join (lit " ") (map (fun s => lit "#" ++ s) (snd r)))] (chars (fst r)) ++ xml_reader InText rest.
Proof.
  intros r rest. unfold tei_rdg. rewrite <- !app_assoc.
  rewrite (rdg_reads (minidom_escape (tei_wit (snd r))) (minidom_escape (fst r)) (fst r) rest (tame_minidom _)).
  - rewrite value_minidom. reflexivity.
  - intros x. apply read_minidom.
Qed.

Definition item_events (i : tei_item) : list event :=
  match i with
  | TeiText s => chars s
  | TeiApp rs => element (lit "app") []
      (flat_map (fun r => element (lit "rdg") [(lit "wit", str_join (lit " ") (map (fun s => lit "#" ++ s) (snd r)))] (chars (fst r))) rs)
  end.
Lemma item_reads : forall i rest, xml_reader InText (tei_item_xml i ++ rest) = item_events i ++ xml_reader InText rest.
Proof.
  intros [s|rs] rest; cbn [tei_item_xml item_events]; [apply read_minidom|]. destruct rs as [|x rs]; [reflexivity|].
  apply read_app. intros r. apply flat_map_reads. intros y r' _. apply tei_rdg_reads.
Qed.

Definition tei_root : list (str * str) :=
  [(lit "xmlns:cx", lit "http://interedition.eu/collatex/ns/1.0"); (lit "xmlns", lit "http://www.tei-c.org/ns/1.0")].
Lemma head_reads : forall rest, xml_reader InText (tei_head ++ tei_open ++ lit ">" ++ rest) = Begin (lit "cx:apparatus") tei_root :: xml_reader InText rest.
Proof. intros rest. reflexivity. Qed.

Lemma tei_xml_reads : forall items, xml_events (tei_xml items) = element (lit "cx:apparatus") tei_root (flat_map item_events items).
Proof.
  intros items. unfold xml_events, tei_xml. destruct items as [|x items]; [reflexivity|]. rewrite head_reads.
  rewrite (flat_map_reads _ item_events); [reflexivity|]. intros i r _. apply item_reads.
Qed.

(** Indentation adds tabs and line feeds only. *)
Lemma without_app : forall l a b, without_chars l (a ++ b) = without_chars l a ++ without_chars l b.
Proof. intros. apply filter_app. Qed.

Definition W : list N := [9%N; 10%N].
Lemma without_tab : forall x, without_chars W (Char 9 :: x) = without_chars W x.
Proof. reflexivity. Qed.
Lemma without_lf : forall x, without_chars W (Char 10 :: x) = without_chars W x.
Proof. reflexivity. Qed.
Lemma without_begin : forall n a x, without_chars W (Begin n a :: x) = Begin n a :: without_chars W x.
Proof. reflexivity. Qed.
Lemma without_end : forall n x, without_chars W (End n :: x) = End n :: without_chars W x.
Proof. reflexivity. Qed.
Lemma reads_tab : forall r, xml_reader InText ([c_tab] ++ r) = Char 9 :: xml_reader InText r.
Proof. reflexivity. Qed.
Lemma reads_lf : forall r, xml_reader InText ([c_lf] ++ r) = Char 10 :: xml_reader InText r.
Proof. reflexivity. Qed.

Lemma reads_app : forall r, xml_reader InText (lit "<app>" ++ r) = Begin (lit "app") [] :: xml_reader InText r.
Proof. reflexivity. Qed.
Lemma reads_end_app : forall r, xml_reader InText (lit "</app>" ++ r) = End (lit "app") :: xml_reader InText r.
Proof. reflexivity. Qed.

Definition rdg_events (r : str * list str) : list event :=
  element (lit "rdg") [(lit "wit", str_join (lit " ") (map (fun s => lit "#" ++ s) (snd r)))] (chars (fst r)).
Lemma pretty_reads : forall i rest,
  without_chars W (xml_reader InText (tei_item_pretty i ++ rest)) = without_chars W (item_events i) ++ without_chars W (xml_reader InText rest).
Proof.
  intros i rest. destruct i as [s|rs]; cbn [tei_item_pretty item_events].
  - rewrite read_minidom. unfold chars. rewrite !map_app, !without_app. change (without_chars W (map Char lf)) with (@nil event). rewrite app_nil_r. reflexivity.
  - destruct rs as [|x rs]; [reflexivity|]. rewrite <- !app_assoc. unfold tab, lf. fold rdg_events.
    assert (A : forall L r, without_chars W (xml_reader InText (flat_map (fun r => [c_tab] ++ [c_tab] ++ tei_rdg r ++ [c_lf]) L ++ r)) =
      without_chars W (flat_map rdg_events L) ++ without_chars W (xml_reader InText r)).
    { induction L as [|y L IH]; intros r; [reflexivity|]. cbn [flat_map]. rewrite <- !app_assoc.
      rewrite reads_tab, without_tab, reads_tab, without_tab, tei_rdg_reads, !without_app, reads_lf, without_lf, IH, <- app_assoc. reflexivity. }
    rewrite reads_tab, without_tab.
    rewrite reads_app, without_begin, reads_lf, without_lf, A, reads_tab, without_tab.
    rewrite reads_end_app, without_end, reads_lf, without_lf. unfold element. rewrite without_begin, without_app. cbn [app]. rewrite <- app_assoc. reflexivity.
Qed.

Lemma tei_pretty_reads : forall items,
  without_chars W (xml_events (tei_pretty items)) = without_chars W (element (lit "cx:apparatus") tei_root (flat_map item_events items)).
Proof.
  intros items.
  assert (H : forall rest, xml_reader InText (tei_head ++ lf ++ tei_open ++ lit ">" ++ rest) = Char 10 :: Begin (lit "cx:apparatus") tei_root :: xml_reader InText rest) by reflexivity.
  assert (B : forall L, without_chars W (xml_reader InText (flat_map tei_item_pretty L ++ lit "</cx:apparatus>" ++ lf)) =
    without_chars W (flat_map item_events L) ++ [End (lit "cx:apparatus")]).
  { induction L as [|i L IH]; [reflexivity|]. cbn [flat_map]. rewrite <- !app_assoc, pretty_reads, IH, without_app, <- app_assoc. reflexivity. }
  assert (M : forall L, without_chars W (xml_events (tei_head ++ lf ++ tei_open ++ lit ">" ++ lf ++ flat_map tei_item_pretty L ++ lit "</cx:apparatus>" ++ lf)) =
    without_chars W (element (lit "cx:apparatus") tei_root (flat_map item_events L))).
  { intros L. unfold xml_events. rewrite H, without_lf, without_begin. unfold lf at 1. rewrite reads_lf, without_lf, B. unfold element.
    rewrite without_begin, without_app. reflexivity. }
  unfold tei_pretty. destruct items as [|x items]; [vm_compute; reflexivity|].
  destruct x as [s|rs]; [|apply (M (TeiApp rs :: items))]. destruct items as [|y items]; [|apply (M (TeiText s :: y :: items))].
  unfold xml_events. rewrite H, without_lf, without_begin, read_minidom. unfold element. rewrite without_begin, !without_app.
  cbn [flat_map item_events]. rewrite app_nil_r. reflexivity.
Qed.

Lemma items_events : forall ps, flat_map item_events (flat_map items_of ps) = flat_map tei_part_events ps.
Proof.
  intros ps. induction ps as [|[p b] ps IH]; [reflexivity|]. cbn [flat_map]. rewrite flat_map_app, IH. f_equal.
  unfold items_of, tei_part_events. cbn [fst snd flat_map]. destruct p, b; cbn [item_events flat_map]; reflexivity.
Qed.

Lemma export_tei_spec : forall cc indent t s wits, wits <> [] -> NoDup wits -> length (t_rows t) = length wits ->
  Forall (fun col => NoDup (map fst (c_cells col)) /\ incl (map fst (c_cells col)) wits) (t_columns t) ->
  export_tei cc indent t = Ok s ->
  exists ps, Forall2 (tei_right cc wits) (t_columns t) ps /\
    if indent then without_chars W (xml_events s) = without_chars W (tei_document ps) else xml_events s = tei_document ps.
Proof.
  intros cc indent t s wits NW ND LR FC H. unfold export_tei in H. apply bind_ok in H as [items [H1 H2]]. injection H2 as <-.
  unfold tei_items in H1. apply bind_ok in H1 as [l [H1 H2]]. injection H2 as <-. apply mapM_Forall2 in H1. rewrite LR in H1.
  assert (X : exists ps, Forall2 (tei_right cc wits) (t_columns t) ps /\ concat l = flat_map items_of ps).
  { revert FC H1. generalize (t_columns t). intros cols FC F. induction F as [|a b la lb E F IH]; [exists []; split; [constructor|reflexivity]|].
    inversion FC as [|? ? [F1 F2] FC']; subst. destruct (IH FC') as [ps [P1 P2]].
    destruct (tei_column_spec cc wits a b NW ND F1 F2 E) as [p [Q1 Q2]]. exists (p :: ps). split; [constructor; assumption|].
    cbn [concat flat_map]. rewrite Q1, P2. reflexivity. }
  destruct X as [ps [P1 P2]]. exists ps. split; [assumption|]. unfold tei_document. fold tei_root. rewrite <- items_events, P2.
  destruct indent; [apply tei_pretty_reads|apply tei_xml_reads].
Qed.

(** ** csv of a table *)
Lemma row_strings_says : forall ro l, row_strings ro = Ok l -> Forall2 (fun c x => cell_says c (field_text x)) (r_cells ro) l.
Proof.
  intros ro l H. apply mapM_Forall2 in H. induction H as [|a b la lb E F IH]; constructor; [|assumption]. unfold cell_string in E.
  destruct a as [[|t ts]|].
  - injection E as <-. exists []. split; [constructor|reflexivity].
  - apply bind_ok in E as [x [E1 E2]]. injection E2 as <-. apply cell_text_ok. assumption.
  - injection E as <-. reflexivity.
Qed.

Lemma export_csv_spec : forall tsv t s, export_csv tsv t = Ok s ->
  Forall2 (fun ro line => exists texts, Forall2 cell_says (r_cells ro) texts /\ line = map newlines (r_header ro :: texts))
    (t_rows t) (csv_read (if tsv then 9%N else 44%N) s).
Proof.
  intros tsv t s H. unfold export_csv in H. apply bind_ok in H as [rows [H1 H2]]. injection H2 as <-. apply mapM_Forall2 in H1.
  change (if tsv then c_tab else c_comma) with (if tsv then 9%N else 44%N).
  rewrite read_rows.
  - induction H1 as [|ro r la lb E F IH]; [constructor|]. cbn [map]. constructor; [|assumption].
    apply bind_ok in E as [l [E1 E2]]. injection E2 as <-. apply row_strings_says in E1. exists (map field_text l). split.
    + induction E1; constructor; assumption.
    + cbn [map field_text]. rewrite map_map. reflexivity.
  - destruct tsv; discriminate.
  - destruct tsv; discriminate.
  - destruct tsv; discriminate.
  - clear - H1. induction H1 as [|ro r la lb E F IH]; constructor; [|assumption]. apply bind_ok in E as [l [_ E]]. injection E as <-. discriminate.
Qed.

(** ** The table *)
Section Tables.
  Variables (cc : cclass) (topo : graph -> res (list vid)) (ratio : str -> str -> Q).
  Hypothesis TO : topo_ok topo.

  Lemma collate_not_empty : forall c o x, collate cc topo ratio c o = Ok x -> c <> [] /\ no_empty_witness c.
  Proof.
    intros c o x H. destruct (o_astar o) eqn:A; [rewrite (astar_fails cc topo ratio c o A) in H; discriminate|]. split.
    - intros ->. rewrite (none_fails cc topo ratio o A) in H. discriminate.
    - destruct (Exists_dec (fun w => w_toks w = []) c) as [E|E].
      + intros w. destruct (w_toks w); [left; reflexivity|right; discriminate].
      + rewrite (empty_fails cc topo ratio c o A E) in H. discriminate.
      + apply Forall_Exists_neg. exact E.
  Qed.

  Record good_table (c : collation) (t : table) : Prop := {
    gt_rows : t_rows t = map (construct_row (t_columns t)) (map w_sigil c);
    gt_keys : Forall (fun col => NoDup (map fst (c_cells col)) /\ incl (map fst (c_cells col)) (map w_sigil c)) (t_columns t);
    gt_cells : forall col sg ts, In col (t_columns t) -> In (sg, ts) (c_cells col) -> ts <> [];
    gt_some : t_columns t <> []
  }.

  Lemma columns_exist : forall c o t, good_sigla c -> o_near o = false -> collate cc topo ratio c o = Ok (OTable t) -> t_columns t <> [].
  Proof.
    intros c o t G Hn H C. destruct (collate_not_empty c o _ H) as [N F]. destruct c as [|w c]; [congruence|].
    pose proof (rows_stamped cc topo ratio TO (w :: c) o t G Hn H) as E. destruct G as [ND NG].
    destruct (table_shape cc topo ratio TO (w :: c) o t ND NG H) as [_ [S _]].
    cbn [map stamped] in E. destruct (t_rows t) as [|ro rows]; [discriminate|]. cbn [map iw_toks] in E. injection E as E _.
    destruct (S ro (or_introl eq_refl)) as [L _]. rewrite C in L. cbn [length] in L. unfold row_tokens in E. destruct (r_cells ro); [|discriminate].
    cbn [flat_map] in E. inversion F as [|? ? Q _]; subst. destruct (w_toks w); [congruence|discriminate].
  Qed.

  Theorem table_good : forall c o t, good_sigla c -> collate cc topo ratio c o = Ok (OTable t) -> good_table c t.
  Proof.
    intros c o t G H. destruct (collate_table_inv cc topo ratio c o t H) as [g [r [H1 H2]]]. pose proof G as [ND NE].
    destruct (result_spec cc topo ratio TO c o g r ND NE H1) as [ti [st [W0 [Wp [part RS]]]]].
    pose proof (jo_graph _ _ _ _ _ _ (rs_joined _ _ _ _ _ _ _ _ _ _ _ RS)) as GI.
    pose proof (rs_ranks _ _ _ _ _ _ _ _ _ _ _ RS) as RI.
    pose proof (carries_sigla c Wp (rs_carries _ _ _ _ _ _ _ _ _ _ _ RS)) as SG.
    rewrite (table_weak g Wp GI _ r RI) in H2. injection H2 as <-. constructor.
    - reflexivity.
    - rewrite Forall_forall. intros col Hc. apply In_nth_error in Hc as [i Hc]. destruct (column_In g Wp _ _ _ _ RI Hc) as [vs [_ [_ ->]]].
      cbn [wcol c_cells]. split; [apply put_tokens_NoDup; constructor|]. intros sg Hs. apply in_map_iff in Hs as [[sg' ts] [<- Hs]].
      apply wcells_In in Hs as [v [p [P1 [P2 [P3 P4]]]]]. cbn [fst]. rewrite <- P3, <- SG. apply in_map. assumption.
    - intros col sg ts Hc Hi. apply In_nth_error in Hc as [i Hc]. destruct (column_In g Wp _ _ _ _ RI Hc) as [vs [_ [_ ->]]].
      cbn [wcol c_cells] in Hi. apply wcells_In in Hi as [v [p [P1 [P2 [P3 P4]]]]]. apply (gi_on _ _ GI p v ts P2 P4).
    - destruct (o_near o) eqn:Hn.
      + (* near matching keeps the number of columns *)
        destruct (o_segmentation o) eqn:Hs.
        { exfalso. unfold collate_graph in H1. rewrite Hn, Hs in H1. apply bind_ok in H1 as [[? ?] [_ H1]]. apply bind_ok in H1 as [? [_ H1]]. discriminate. }
        assert (B : exists g0 r0, collate_graph cc topo ratio c (CollateSpec.set_near o false) = Ok (g0, r0)).
        { unfold collate_graph in *. cbn [CollateSpec.set_near o_astar o_filter o_transp o_near o_segmentation]. rewrite Hs in *.
          apply bind_ok in H1 as [[ti' g1] [A H1]]. rewrite A. cbn [bind]. apply bind_ok in H1 as [r1 [R H1]]. rewrite R. cbn [bind]. eexists. eexists. reflexivity. }
        destruct B as [g0 [r0 B]]. destruct (table_exists cc topo ratio TO c (CollateSpec.set_near o false) g0 r0 ND NE B) as [Wq HT].
        assert (B' : collate cc topo ratio c (CollateSpec.set_near (set_output o (lit "table")) false) = Ok (OTable (wtable Wq (map w_sigil c) r0))).
        { apply (collate_as_table cc topo ratio c (CollateSpec.set_near o false) g0 r0 _ B HT). }
        destruct (near_columns cc topo ratio TO c (set_output o (lit "table")) _ G Hs eq_refl B') as [t' [T1 T2]].
        assert (E : CollateSpec.set_near (set_output o (lit "table")) true = set_output o (lit "table")) by (unfold CollateSpec.set_near, set_output; cbn; rewrite Hn; reflexivity).
        rewrite E in T1. assert (T1' : collate cc topo ratio c (set_output o (lit "table")) = Ok (OTable (wtable Wp (map w_sigil c) r))).
        { apply (collate_as_table cc topo ratio c o g r); [assumption|]. apply table_weak; assumption. }
        rewrite T1' in T1. injection T1 as <-. intros C. rewrite C in T2. symmetry in T2. apply length_zero_iff_nil in T2.
        apply (columns_exist c (CollateSpec.set_near (set_output o (lit "table")) false) _ G eq_refl B' T2).
      + apply (columns_exist c o _ G Hn H).
  Qed.

  (** ** JSON *)
  Lemma sigla_once : forall wits acc, NoDup (acc ++ wits) -> fold_left add_siglum wits acc = acc ++ wits.
  Proof.
    induction wits as [|s wits IH]; intros acc N; cbn [fold_left]; [rewrite app_nil_r; reflexivity|].
    assert (X : existsb (str_eqb s) acc = false).
    { destruct (existsb (str_eqb s) acc) eqn:E; [|reflexivity]. apply existsb_exists in E as [x [I E]]. apply str_eqb_ok in E. subst x.
      apply NoDup_remove_2 in N. exfalso. apply N. apply in_app_iff. auto. }
    unfold add_siglum at 2. rewrite X, IH by (rewrite <- app_assoc; exact N). rewrite <- app_assoc. reflexivity.
  Qed.
  Lemma sigla_again : forall wits acc, incl wits acc -> fold_left add_siglum wits acc = acc.
  Proof.
    induction wits as [|s wits IH]; intros acc I; cbn [fold_left]; [reflexivity|].
    assert (X : existsb (str_eqb s) acc = true). { apply existsb_exists. exists s. split; [apply I; left; reflexivity|apply str_eqb_refl]. }
    unfold add_siglum at 2. rewrite X. apply IH. intros x Hx. apply I. right. assumption.
  Qed.
  Lemma vertical_sigla : forall {A} (cols : list A) wits, cols <> [] -> NoDup wits ->
    fold_left (fun acc (_ : A) => fold_left add_siglum wits acc) cols [] = wits.
  Proof.
    intros A [|c0 cols] wits N ND; [congruence|]. cbn [fold_left]. rewrite (sigla_once wits []) by exact ND. cbn [app]. clear N c0.
    induction cols as [|c cols IH]; [reflexivity|]. cbn [fold_left]. rewrite sigla_again by apply incl_refl. exact IH.
  Qed.

  Definition json_rows (t : table) : list (list jval) := map (fun r => map cell_json (r_cells r)) (t_rows t).
  Definition json_columns (t : table) (wits : list str) : list (list jval) :=
    map (fun c => map (fun s => cell_json (dget str_eqb s (c_cells c))) wits) (t_columns t).

  Lemma export_json_rows : forall c t, good_table c t -> export_json false t = json_result (json_rows t) (map w_sigil c).
  Proof.
    intros c t GT. unfold export_json, json_result, json_rows. rewrite map_map. cbn [app].
    assert (E : map (fun r => JStr (r_header r)) (t_rows t) = map JStr (map w_sigil c)).
    { rewrite (gt_rows _ _ GT), !map_map. reflexivity. }
    rewrite E. reflexivity.
  Qed.
  Lemma export_vertical_columns : forall c t, good_sigla c -> good_table c t ->
    export_vertical_json t (map w_sigil c) = json_result (json_columns t (map w_sigil c)) (map w_sigil c).
  Proof.
    intros c t [ND _] GT. unfold export_vertical_json, json_result, json_columns. rewrite vertical_sigla by (try apply (gt_some _ _ GT); exact ND).
    rewrite !map_map. reflexivity.
  Qed.
  Lemma json_transpose : forall c t, good_table c t ->
    length (json_rows t) = length c /\ Forall (fun l => length l = length (json_columns t (map w_sigil c))) (json_rows t) /\
    Forall (fun l => length l = length c) (json_columns t (map w_sigil c)) /\
    forall i j, entry (json_rows t) i j = entry (json_columns t (map w_sigil c)) j i.
  Proof.
    intros c t GT. unfold json_rows, json_columns. rewrite (gt_rows _ _ GT). rewrite !map_map. split; [rewrite map_length; reflexivity|].
    split; [|split].
    - rewrite Forall_map, Forall_forall. intros w _. cbn [construct_row r_cells]. rewrite !map_length. reflexivity.
    - rewrite Forall_map, Forall_forall. intros col _. rewrite !map_length. reflexivity.
    - intros i j. unfold entry. rewrite !nth_error_map. destruct (nth_error c i) as [w|] eqn:Ei; destruct (nth_error (t_columns t) j) as [col|] eqn:Ej; cbn [option_map].
      + cbn [construct_row r_cells]. rewrite !nth_error_map, Ei, Ej. reflexivity.
      + cbn [construct_row r_cells]. rewrite !nth_error_map, Ej. reflexivity.
      + rewrite !nth_error_map, Ei. reflexivity.
      + reflexivity.
  Qed.

  Theorem transpose : forall c o jh, good_sigla c -> collate cc topo ratio c (set_vertical o false) = Ok (OJson jh) ->
    exists jv rows cols, collate cc topo ratio c (set_vertical o true) = Ok (OJson jv) /\
      jh = json_result rows (map w_sigil c) /\ jv = json_result cols (map w_sigil c) /\
      length rows = length c /\ Forall (fun l => length l = length cols) rows /\ Forall (fun l => length l = length c) cols /\
      forall i j, entry rows i j = entry cols j i.
  Proof.
    intros c o jh G H. destruct (collate_inv cc topo ratio c _ _ H) as [g [r [H1 [R [t [H2 H3]]]]]]. cbn [representation_ok set_vertical o_output] in R.
    assert (HT : collate cc topo ratio c (set_output (set_vertical o false) (lit "table")) = Ok (OTable t)) by (apply (collate_as_table cc topo ratio c (set_vertical o false) g r t H1 H2)).
    pose proof (table_good c _ t G HT) as GT. cbn [set_vertical o_vertical] in H3.
    exists (export_vertical_json t (map w_sigil c)), (json_rows t), (json_columns t (map w_sigil c)). split.
    - unfold collate. change (collate_graph cc topo ratio c (set_vertical o true)) with (collate_graph cc topo ratio c (set_vertical o false)). rewrite H1. cbn [bind].
      unfold render. rewrite H2. cbn [set_vertical o_output o_vertical]. rewrite R. reflexivity.
    - split; [rewrite H3; apply export_json_rows; assumption|]. split; [apply export_vertical_columns; assumption|]. apply json_transpose. assumption.
  Qed.

  (** Token data. *)
  Lemma stamp_json : forall sg ts pos, (forall t, In t ts -> ~ In k_sigil (map fst (t0_data t)) /\ ~ In k_pos (map fst (t0_data t))) ->
    map (fun t => JObj (tk_data t)) (stamp sg pos ts) = map (fun '(t, p) => json_token sg t p) (combine ts (seq pos (length ts))).
  Proof.
    intros sg ts. induction ts as [|t ts IH]; intros pos H; [reflexivity|]. cbn [stamp map length seq combine].
    rewrite IH by (intros x Hx; apply H; right; assumption). rewrite Nat.add_1_r. f_equal. cbn [tk_data]. unfold json_token. f_equal.
    destruct (H t (or_introl eq_refl)) as [N1 N2]. rewrite (dset_new _ str_eqb_ok k_sigil) by assumption.
    rewrite (dset_new _ str_eqb_ok k_pos); [rewrite <- app_assoc; reflexivity|]. rewrite map_app, in_app_iff. cbn [map fst In].
    intros [C|[C|[]]]; [contradiction|]. revert C. apply lit_neq. reflexivity.
  Qed.

  Lemma json_tokens_row : forall cells, json_tokens (map cell_json cells) = map (fun t => JObj (tk_data t)) (flat_map cell_tokens cells).
  Proof.
    unfold json_tokens. induction cells as [|x cells IH]; [reflexivity|]. cbn [map flat_map]. rewrite map_app, <- IH. f_equal. destruct x as [[|t ts]|]; reflexivity.
  Qed.

  Fixpoint positions (pos : nat) (c : collation) : list (list nat) :=
    match c with [] => [] | w :: c' => seq pos (length (w_toks w)) :: positions (pos + length (w_toks w) + 1) c' end.
  Lemma positions_NoDup : forall c pos, NoDup (concat (positions pos c)) /\ forall p, In p (concat (positions pos c)) -> pos <= p.
  Proof.
    induction c as [|w c IH]; intros pos; [split; [constructor|contradiction]|]. cbn [positions concat].
    destruct (IH (pos + length (w_toks w) + 1)) as [I1 I2]. split.
    - apply NoDup_app_iff. split; [apply seq_NoDup|]. split; [assumption|]. intros x H1 H2. apply in_seq in H1. apply I2 in H2. lia.
    - intros p Hp. apply in_app_iff in Hp as [Hp|Hp]; [apply in_seq in Hp; lia|apply I2 in Hp; lia].
  Qed.

  Theorem json_tokens_spec : forall c o j, good_sigla c -> no_internal_keys c -> o_near o = false -> o_vertical o = false ->
    collate cc topo ratio c o = Ok (OJson j) ->
    exists rows pos, j = json_result rows (map w_sigil c) /\ NoDup (concat pos) /\ length rows = length c /\ length pos = length c /\
      forall i w, nth_error c i = Some w -> exists row ps, nth_error rows i = Some row /\ nth_error pos i = Some ps /\ length ps = length (w_toks w) /\
        json_tokens row = map (fun '(t, p) => json_token (w_sigil w) t p) (combine (w_toks w) ps).
  Proof.
    intros c o j G NK Hn Hv H. destruct (collate_pair cc topo ratio c o _ H I) as [t [HT E]]. rewrite Hv in E.
    pose proof (table_good c _ t G HT) as GT. rewrite (export_json_rows c t GT) in E.
    pose proof (rows_stamped cc topo ratio TO c (set_output o (lit "table")) t G Hn HT) as ST. destruct (json_transpose c t GT) as [L _].
    exists (json_rows t), (positions 0 c). split; [exact E|]. split; [apply positions_NoDup|]. split; [exact L|].
    assert (PL : forall c pos, length (positions pos c) = length c) by (clear; induction c; intros; cbn; auto). split; [apply PL|].
    intros i w Hi.
    assert (S : forall c pos, nth_error c i = Some w -> exists p, nth_error (stamped pos c) i = Some {| iw_sigil := w_sigil w; iw_toks := stamp (w_sigil w) p (w_toks w) |} /\ nth_error (positions pos c) i = Some (seq p (length (w_toks w)))).
    { clear. revert i. induction i as [|i IH]; intros [|x c] pos Hi; try discriminate; cbn [nth_error stamped positions] in *; [injection Hi as ->; eauto|apply IH; assumption]. }
    destruct (S c 0 Hi) as [p [S1 S2]].
    assert (Hr : nth_error (map row_tokens (t_rows t)) i = Some (stamp (w_sigil w) p (w_toks w))) by (rewrite ST, nth_error_map, S1; reflexivity).
    rewrite nth_error_map in Hr. destruct (nth_error (t_rows t) i) as [ro|] eqn:Er; [|discriminate]. cbn [option_map] in Hr. injection Hr as Hr.
    exists (map cell_json (r_cells ro)), (seq p (length (w_toks w))). split; [unfold json_rows; rewrite nth_error_map, Er; reflexivity|].
    split; [exact S2|]. split; [apply seq_length|]. rewrite json_tokens_row. fold (row_tokens ro). rewrite Hr. apply stamp_json.
    intros t1 Ht. apply (NK w t1); [apply nth_error_In in Hi; assumption|assumption].
  Qed.

  (** With near matching too, nothing but token data of the witness appears. *)
  Theorem json_token_data : forall c o j, good_sigla c -> no_internal_keys c -> o_vertical o = false -> collate cc topo ratio c o = Ok (OJson j) ->
    exists rows, j = json_result rows (map w_sigil c) /\ length rows = length c /\
      forall i w row x, nth_error c i = Some w -> nth_error rows i = Some row -> In x (json_tokens row) ->
        exists t p, In t (w_toks w) /\ x = json_token (w_sigil w) t p.
  Proof.
    intros c o j G NK Hv H. destruct (collate_pair cc topo ratio c o _ H I) as [t [HT E]]. rewrite Hv in E.
    pose proof (table_good c _ t G HT) as GT. rewrite (export_json_rows c t GT) in E. destruct (json_transpose c t GT) as [L _].
    exists (json_rows t). split; [exact E|]. split; [exact L|]. intros i w row x Hi Hr Hx.
    unfold json_rows in Hr. rewrite nth_error_map in Hr. destruct (nth_error (t_rows t) i) as [ro|] eqn:Er; [|discriminate]. injection Hr as <-.
    rewrite json_tokens_row in Hx. apply in_map_iff in Hx as [tk [<- Hk]]. apply in_flat_map in Hk as [ce [C1 C2]]. destruct ce as [ts|]; [|contradiction].
    assert (HR : r_header ro = w_sigil w).
    { rewrite (gt_rows _ _ GT), map_map, nth_error_map, Hi in Er. injection Er as <-. reflexivity. }
    destruct (cells_input cc topo ratio TO c _ t G HT) as [_ CI]. destruct (CI ro ts tk (nth_error_In _ _ Er) C1 C2) as [w' [t0 [W1 [W2 [W3 [_ W4]]]]]].
    rewrite HR in W2. assert (w' = w).
    { destruct G as [ND _]. apply In_nth_error in W1 as [i' W1]. assert (i' = i); [|congruence].
      apply (proj1 (NoDup_nth_error (map w_sigil c)) ND); [apply nth_error_Some; rewrite nth_error_map, W1; discriminate|]. rewrite !nth_error_map, W1, Hi. cbn. congruence. }
    subst w'. exists t0, (tk_pos tk). split; [assumption|]. unfold json_token. f_equal. rewrite W4.
    destruct (NK w t0 W1 W3) as [N1 N2]. rewrite (dset_new _ str_eqb_ok k_sigil) by assumption.
    rewrite (dset_new _ str_eqb_ok k_pos); [rewrite <- app_assoc; reflexivity|]. rewrite map_app, in_app_iff. cbn [map fst In].
    intros [C|[C|[]]]; [contradiction|]. revert C. apply lit_neq. reflexivity.
  Qed.
End Tables.

Theorem tei_of : forall cc topo ratio, topo_ok topo -> forall c o s, good_sigla c -> collate cc topo ratio c o = Ok (OTei s) ->
  exists t ps, collate cc topo ratio c (set_output o (lit "table")) = Ok (OTable t) /\
    Forall2 (tei_right cc (map w_sigil c)) (t_columns t) ps /\
    if o_indent o then without_chars W (xml_events s) = without_chars W (tei_document ps) else xml_events s = tei_document ps.
Proof.
  intros cc topo ratio TO c o s G H. destruct (collate_pair cc topo ratio c o _ H I) as [t [HT E]].
  pose proof (table_good cc topo ratio TO c _ t G HT) as GT. destruct (collate_not_empty cc topo ratio c o _ H) as [N _].
  destruct (export_tei_spec cc (o_indent o) t s (map w_sigil c)) as [ps [A B]].
  - intros C. apply map_eq_nil in C. contradiction.
  - apply G.
  - rewrite (gt_rows _ _ GT), map_length. reflexivity.
  - exact (gt_keys _ _ GT).
  - exact E.
  - exists t, ps. auto.
Qed.
