(** Proofs about what an XML parser reads from the xml and TEI outputs (C53). *)
From Verif Require Import Py TokenModel SuffixModel IndexModel GraphModel AlignModel TableModel NearModel ExportModel CollateModel
  Lib GraphSpec TableSpec CollateSpec ExportSpec XmlSpec OutputProof ExportProof.
From Coq Require Import Lia QArith.
Open Scope list_scope.
Open Scope nat_scope.

Lemma nl_cons : forall c r, c <> 13%N -> newlines (c :: r) = c :: newlines r.
Proof. intros c r N. rewrite <- !un_newlines. apply un_cons. assumption. Qed.
Lemma nl_cr_lf : forall r, newlines (13%N :: 10%N :: r) = 10%N :: newlines r.
Proof. reflexivity. Qed.
Lemma nl_cr : forall r, hd_error r <> Some 10%N -> newlines (13%N :: r) = 10%N :: newlines r.
Proof.
  intros r N. rewrite <- !un_newlines. cbn [universal_newlines]. change (13 =? c_cr)%N with true. cbv iota.
  destruct r as [|d r]; [reflexivity|]. cbn [hd_error] in N. destruct (N.eqb_spec d c_lf) as [->|E]; [exfalso; apply N; reflexivity|reflexivity].
Qed.
Lemma cr_dec : forall c : N, c = 13%N \/ c <> 13%N.
Proof. intros c. destruct (N.eqb_spec c 13); auto. Qed.
Lemma nl_ind : forall P : list N -> Prop, P [] -> (forall c s, c <> 13%N -> P s -> P (c :: s)) -> (forall s : list N, P s -> P (13%N :: 10%N :: s)) ->
  (forall s : list N, hd_error s <> Some 10%N -> P s -> P (13%N :: s)) -> forall s : list N, P s.
Proof.
  intros P P0 P1 P2 P3. assert (G : forall n s, length s <= n -> P s); [|intros s; apply (G _ s (Nat.le_refl _))].
  induction n as [|n IH]; intros [|c s] L; try assumption; cbn [length] in L; [lia|].
  destruct (cr_dec c) as [->|N]; [|apply P1; [assumption|apply IH; lia]]. destruct s as [|d s]; [apply P3; [discriminate|assumption]|].
  destruct (N.eqb_spec d 10) as [->|N]; [apply P2, IH; cbn [length] in L; lia|]. apply P3; [intros C; injection C as ->; contradiction|apply IH; lia].
Qed.
Lemma nl_app : forall a c r, c <> 10%N -> newlines (a ++ c :: r) = newlines a ++ newlines (c :: r).
Proof.
  intros a c r N. induction a as [|x s Nx IH|s IH|s Ns IH] using nl_ind; [reflexivity| | |].
  - cbn [app]. rewrite !nl_cons by assumption. rewrite IH. reflexivity.
  - cbn [app]. rewrite !nl_cr_lf, IH. reflexivity.
  - cbn [app]. rewrite !nl_cr; [|assumption|]; [rewrite IH; reflexivity|]. destruct s; [intros C; injection C as ->; contradiction|exact Ns].
Qed.

(** The string [s] is read as the events [ev]. *)
Definition R (value : str -> str) (s : str) (ev : list event) : Prop :=
  xml_reader InText (blanks_in_tags false (newlines s)) = as_read value ev /\
  (hd_error s = Some 10%N <-> hd_error ev = Some (Char 10)).

Lemma as_read_char : forall value c ev, c <> 13%N -> as_read value (Char c :: ev) = Char c :: as_read value ev.
Proof.
  intros value c ev N. destruct c as [|p]; [reflexivity|]. cbn [as_read].
  repeat (destruct p as [p|p|]; try reflexivity). congruence.
Qed.
Lemma as_read_cr : forall value ev, hd_error ev <> Some (Char 10) -> as_read value (Char 13 :: ev) = Char 10 :: as_read value ev.
Proof.
  intros value ev N. cbn [as_read]. destruct ev as [|[n a|n|c] ev]; try reflexivity.
  destruct c as [|p]; [reflexivity|]. repeat (destruct p as [p|p|]; try reflexivity). exfalso. apply N. reflexivity.
Qed.

Lemma as_read_nil : forall value ev, as_read value ev = [] -> ev = [].
Proof.
  intros value [|[n a|n|c] ev] H; [reflexivity|discriminate|discriminate|]. exfalso. destruct (cr_dec c) as [->|N].
  - destruct ev as [|e ev]; [discriminate|]. assert (D : hd_error (e :: ev) = Some (Char 10) \/ hd_error (e :: ev) <> Some (Char 10)).
    { destruct e as [m a|m|c]; [right; discriminate|right; discriminate|]. cbn [hd_error]. destruct (N.eqb_spec c 10) as [->|Nc]; [left; reflexivity|right; congruence]. }
    destruct D as [D|D]; [injection D as ->; discriminate|]. rewrite as_read_cr in H by assumption. discriminate.
  - rewrite as_read_char in H by assumption. discriminate.
Qed.

Lemma R_char : forall value c s ev, c <> 38%N -> c <> 60%N -> c <> 62%N -> R value s ev -> R value (c :: s) (Char c :: ev).
Proof.
  intros value c s ev N1 N2 N3 [A B]. split.
  - destruct (cr_dec c) as [->|N].
    + destruct s as [|d s].
      * symmetry in A. apply as_read_nil in A. subst ev. reflexivity.
      * destruct (N.eqb_spec d 10) as [->|Nd].
        -- destruct ev as [|e ev]; [discriminate (proj1 B eq_refl)|]. pose proof (proj1 B eq_refl) as E. injection E as ->.
           rewrite nl_cr_lf. change (as_read value (Char 13 :: Char 10 :: ev)) with (Char 10 :: as_read value ev).
           rewrite as_read_char in A by discriminate. rewrite <- A. rewrite nl_cons by discriminate. reflexivity.
        -- assert (H1 : hd_error (d :: s) <> Some 10%N) by (intros C; injection C as ->; contradiction).
           rewrite nl_cr by assumption. rewrite as_read_cr by (intros C; apply H1, B, C). rewrite <- A. reflexivity.
    + rewrite nl_cons, as_read_char by assumption. rewrite <- A. cbn [blanks_in_tags]. apply N.eqb_neq in N1, N2, N3.
      cbn [xml_reader]. rewrite N1, N2, N3. reflexivity.
  - cbn [hd_error]. split; intros C; injection C as ->; reflexivity.
Qed.

(** References for characters that are no line ends. *)
Lemma R_reference : forall value c name s ev, reference name = c -> c <> 10%N -> c <> 13%N ->
  (forall r, xml_reader InText (blanks_in_tags false (newlines ((38%N :: name ++ [59%N]) ++ r))) = Char c :: xml_reader InText (blanks_in_tags false (newlines r))) ->
  R value s ev -> R value ((38%N :: name ++ [59%N]) ++ s) (Char c :: ev).
Proof.
  intros value c name s ev E N1 N2 H [A B]. split; [rewrite H, A, as_read_char by assumption; reflexivity|].
  cbn [app hd_error]. split; intros C; [discriminate|injection C as ->; contradiction].
Qed.
Lemma R_amp : forall value s ev, R value s ev -> R value (lit "&amp;" ++ s) (Char 38 :: ev).
Proof. intros value s ev. apply (R_reference value 38 (lit "amp")); try discriminate; reflexivity. Qed.
Lemma R_lt : forall value s ev, R value s ev -> R value (lit "&lt;" ++ s) (Char 60 :: ev).
Proof. intros value s ev. apply (R_reference value 60 (lit "lt")); try discriminate; reflexivity. Qed.
Lemma R_gt : forall value s ev, R value s ev -> R value (lit "&gt;" ++ s) (Char 62 :: ev).
Proof. intros value s ev. apply (R_reference value 62 (lit "gt")); try discriminate; reflexivity. Qed.
Lemma R_quot : forall value s ev, R value s ev -> R value (lit "&quot;" ++ s) (Char 34 :: ev).
Proof. intros value s ev. apply (R_reference value 34 (lit "quot")); try discriminate; reflexivity. Qed.

Lemma R_escaped : forall value t s ev, R value s ev -> R value (xml_escape_text t ++ s) (chars t ++ ev).
Proof.
  intros value t s ev H. unfold xml_escape_text, chars. induction t as [|c t IH]; [exact H|]. cbn [flat_map map app]. rewrite <- app_assoc.
  destruct (N.eqb_spec c 38) as [->|N1]; [apply R_amp, IH|]. destruct (N.eqb_spec c 60) as [->|N2]; [apply R_lt, IH|].
  destruct (N.eqb_spec c 62) as [->|N3]; [apply R_gt, IH|]. apply R_char; assumption.
Qed.
Lemma R_minidom : forall value t s ev, R value s ev -> R value (minidom_escape t ++ s) (chars t ++ ev).
Proof.
  intros value t s ev H. unfold minidom_escape, chars. induction t as [|c t IH]; [exact H|]. cbn [flat_map map app]. rewrite <- app_assoc.
  destruct (N.eqb_spec c 38) as [->|N1]; [apply R_amp, IH|]. destruct (N.eqb_spec c 60) as [->|N2]; [apply R_lt, IH|].
  destruct (N.eqb_spec c 34) as [->|N4]; [apply R_quot, IH|].
  destruct (N.eqb_spec c 62) as [->|N3]; [apply R_gt, IH|]. apply R_char; assumption.
Qed.

(** Tags. *)
Definition no_angle (s : str) : Prop := ~ In 60%N s /\ ~ In 62%N s.
Lemma blanks_inside : forall a r, no_angle a -> blanks_in_tags true (a ++ r) = map blank a ++ blanks_in_tags true r.
Proof.
  intros a r. induction a as [|c a IH]; intros [N1 N2]; [reflexivity|]. cbn [app blanks_in_tags map]. cbn [In] in N1, N2.
  destruct (N.eqb_spec c 60) as [->|_]; [tauto|]. destruct (N.eqb_spec c 62) as [->|_]; [tauto|]. rewrite IH by (split; tauto). reflexivity.
Qed.
Lemma nl_no_angle : forall a, no_angle a -> no_angle (newlines a).
Proof.
  intros a. induction a as [|x s Nx IH|s IH|s Ns IH] using nl_ind; intros [N1 N2]; [split; tauto| | |]; cbn [In] in N1, N2.
  - rewrite nl_cons by assumption. destruct IH as [I1 I2]; [split; tauto|]. split; cbn [In]; tauto.
  - rewrite nl_cr_lf. destruct IH as [I1 I2]; [split; tauto|]. split; cbn [In]; intuition discriminate.
  - rewrite nl_cr by assumption. destruct IH as [I1 I2]; [split; tauto|]. split; cbn [In]; intuition discriminate.
Qed.
Lemma nl_no_quote : forall a, ~ In 34%N a -> ~ In 34%N (map blank (newlines a)).
Proof.
  intros a. induction a as [|x s Nx IH|s IH|s Ns IH] using nl_ind; intros N; [tauto| | |]; cbn [In] in N.
  - rewrite nl_cons by assumption. cbn [map In]. unfold blank at 1. destruct ((x =? 9)%N || (x =? 10)%N); intuition discriminate.
  - rewrite nl_cr_lf. cbn [map In]. change (blank 10) with 32%N. intuition discriminate.
  - rewrite nl_cr by assumption. cbn [map In]. change (blank 10) with 32%N. intuition discriminate.
Qed.
Lemma map_blank_no62 : forall a, ~ In 62%N a -> ~ In 62%N (map blank a).
Proof. intros a N C. apply in_map_iff in C as [x [E I]]. unfold blank in E. destruct ((x =? 9)%N || (x =? 10)%N); [discriminate|subst; contradiction]. Qed.

Definition as_value (a : str) : str := attribute_value None (map blank (newlines a)).
Lemma rdg_normal : forall a rest, no_angle a -> ~ In 34%N a ->
  blanks_in_tags false (newlines (lit "<rdg wit=" ++ dq ++ a ++ dq ++ rest)) =
  lit "<rdg wit=" ++ dq ++ map blank (newlines a) ++ dq ++ blanks_in_tags true (newlines rest).
Proof.
  intros a rest NA NQ. change (newlines (lit "<rdg wit=" ++ dq ++ a ++ dq ++ rest)) with (lit "<rdg wit=" ++ dq ++ newlines (a ++ 34%N :: rest)).
  rewrite nl_app by discriminate. rewrite nl_cons by discriminate.
  change (blanks_in_tags false (lit "<rdg wit=" ++ dq ++ newlines a ++ 34%N :: newlines rest)) with
    (lit "<rdg wit=" ++ dq ++ blanks_in_tags true (newlines a ++ 34%N :: newlines rest)).
  rewrite blanks_inside by (apply nl_no_angle; assumption). reflexivity.
Qed.

Lemma R_rdg : forall value a v rest ev, no_angle a -> ~ In 34%N a -> as_value a = value v -> R value rest ev ->
  R value (lit "<rdg wit=" ++ dq ++ a ++ dq ++ lit ">" ++ rest) (Begin (lit "rdg") [(lit "wit", v)] :: ev).
Proof.
  intros value a v rest ev NA NQ E [A B]. split.
  - rewrite rdg_normal by assumption. change (newlines (lit ">" ++ rest)) with (62%N :: newlines rest).
    change (blanks_in_tags true (62%N :: newlines rest)) with (62%N :: blanks_in_tags false (newlines rest)).
    replace (lit "<rdg wit=" ++ dq ++ map blank (newlines a) ++ dq ++ 62%N :: blanks_in_tags false (newlines rest))
      with (60%N :: (lit "rdg wit=" ++ 34%N :: map blank (newlines a) ++ [34%N]) ++ 62%N :: blanks_in_tags false (newlines rest)).
    + assert (T : ~ In 62%N (map blank (newlines a))) by (apply map_blank_no62, (proj2 (nl_no_angle a NA))).
      rewrite read_tag.
      * rewrite tag_rdg by (split; [assumption|apply nl_no_quote; assumption]). rewrite A. fold (as_value a). rewrite E. reflexivity.
      * rewrite in_app_iff. cbn [In]. rewrite in_app_iff. revert T. generalize (map blank (newlines a)). intros x T. cbn. intuition discriminate.
    + unfold dq. cbn [lit app]. do 10 f_equal. rewrite <- app_assoc. reflexivity.
  - cbn. split; discriminate.
Qed.
Lemma R_rdg_empty : forall value a v rest ev, no_angle a -> ~ In 34%N a -> as_value a = value v -> R value rest ev ->
  R value (lit "<rdg wit=" ++ dq ++ a ++ dq ++ lit " />" ++ rest) (Begin (lit "rdg") [(lit "wit", v)] :: End (lit "rdg") :: ev).
Proof.
  intros value a v rest ev NA NQ E [A B]. split.
  - rewrite rdg_normal by assumption. change (newlines (lit " />" ++ rest)) with (32%N :: 47%N :: 62%N :: newlines rest).
    change (blanks_in_tags true (32%N :: 47%N :: 62%N :: newlines rest)) with (32%N :: 47%N :: 62%N :: blanks_in_tags false (newlines rest)).
    replace (lit "<rdg wit=" ++ dq ++ map blank (newlines a) ++ dq ++ 32%N :: 47%N :: 62%N :: blanks_in_tags false (newlines rest))
      with (60%N :: (lit "rdg wit=" ++ 34%N :: map blank (newlines a) ++ 34%N :: lit " /") ++ 62%N :: blanks_in_tags false (newlines rest)).
    + assert (T : ~ In 62%N (map blank (newlines a))) by (apply map_blank_no62, (proj2 (nl_no_angle a NA))).
      rewrite read_tag.
      * rewrite tag_rdg_empty by (split; [assumption|apply nl_no_quote; assumption]). rewrite A. fold (as_value a). rewrite E. reflexivity.
      * rewrite in_app_iff. cbn [In]. rewrite in_app_iff. revert T. generalize (map blank (newlines a)). intros x T. cbn. intuition discriminate.
    + unfold dq. cbn [lit app]. do 10 f_equal. rewrite <- app_assoc. reflexivity.
  - cbn. split; discriminate.
Qed.
Ltac const_tag := intros value s ev [A B]; split; [cbn [as_read]; rewrite <- A; reflexivity|cbn; split; discriminate].
Lemma R_end_rdg : forall value s ev, R value s ev -> R value (lit "</rdg>" ++ s) (End (lit "rdg") :: ev).
Proof. const_tag. Qed.
Lemma R_app : forall value s ev, R value s ev -> R value (lit "<app>" ++ s) (Begin (lit "app") [] :: ev).
Proof. const_tag. Qed.
Lemma R_end_app : forall value s ev, R value s ev -> R value (lit "</app>" ++ s) (End (lit "app") :: ev).
Proof. const_tag. Qed.
Lemma R_nil : forall value, R value [] [].
Proof. split; [reflexivity|]. cbn. split; discriminate. Qed.
Lemma R_flat_map : forall {A} value (f : A -> str) (g : A -> list event) l s ev,
  (forall a s ev, R value s ev -> R value (f a ++ s) (g a ++ ev)) -> R value s ev -> R value (flat_map f l ++ s) (flat_map g l ++ ev).
Proof.
  intros A value f g l s ev H HS. induction l as [|a l IH]; [exact HS|]. cbn [flat_map]. rewrite <- !app_assoc. apply H, IH.
Qed.

(** ** The xml output *)
Lemma attr_angle : forall s, no_angle (xml_escape_attr s).
Proof.
  intros s. split; [|apply tame_attr]. unfold xml_escape_attr. induction s as [|c s IH]; [tauto|]. cbn [flat_map]. rewrite in_app_iff. intros [C|C]; [|tauto]. revert C.
  destruct (N.eqb_spec c 38) as [->|N1]; [cbn; intuition discriminate|]. destruct (N.eqb_spec c 60) as [->|N2]; [cbn; intuition discriminate|].
  destruct (N.eqb_spec c 62) as [->|N3]; [cbn; intuition discriminate|]. destruct (N.eqb_spec c 34) as [->|N4]; [cbn; intuition discriminate|].
  destruct (N.eqb_spec c 13) as [->|N5]; [cbn; intuition discriminate|]. destruct (N.eqb_spec c 10) as [->|N6]; [cbn; intuition discriminate|].
  destruct (N.eqb_spec c 9) as [->|N7]; [cbn; intuition discriminate|]. cbn. intuition.
Qed.
Lemma attr_value : forall s, as_value (xml_escape_attr s) = s.
Proof.
  intros s. unfold as_value.
  assert (H : Forall (fun c => c <> 13%N /\ blank c = c) (xml_escape_attr s)).
  { unfold xml_escape_attr. induction s as [|c s IH]; [constructor|]. cbn [flat_map]. apply Forall_app. split; [|assumption].
    destruct (N.eqb_spec c 38) as [->|N1]; [repeat constructor; discriminate|]. destruct (N.eqb_spec c 60) as [->|N2]; [repeat constructor; discriminate|].
    destruct (N.eqb_spec c 62) as [->|N3]; [repeat constructor; discriminate|]. destruct (N.eqb_spec c 34) as [->|N4]; [repeat constructor; discriminate|].
    destruct (N.eqb_spec c 13) as [->|N5]; [repeat constructor; discriminate|]. destruct (N.eqb_spec c 10) as [->|N6]; [repeat constructor; discriminate|].
    destruct (N.eqb_spec c 9) as [->|N7]; [repeat constructor; discriminate|]. constructor; [|constructor]. split; [assumption|].
    unfold blank. apply N.eqb_neq in N6, N7. rewrite N6, N7. reflexivity. }
  rewrite newlines_id by (intros C; rewrite Forall_forall in H; destruct (H _ C); congruence).
  replace (map blank (xml_escape_attr s)) with (xml_escape_attr s); [apply value_escaped|]. induction H as [|c l [_ E] H IH]; [reflexivity|]. cbn [map]. rewrite E, <- IH. reflexivity.
Qed.
Lemma attr_no_quote : forall s, ~ In 34%N (xml_escape_attr s).
Proof. intros s. apply tame_attr. Qed.

Definition same (v : str) : str := v.
Lemma R_xml_rdg : forall r s ev, R same s ev ->
  R same (xml_rdg (fst r) (snd r) ++ s) (element (lit "rdg") [(lit "wit", lit "#" ++ fst r)] (chars (snd r)) ++ ev).
Proof.
  intros [w t] s ev H. unfold xml_rdg, element. cbn [fst snd]. destruct t as [|c t].
  - rewrite <- !app_assoc. cbn [chars map app]. apply R_rdg_empty; [apply attr_angle|apply attr_no_quote|apply attr_value|exact H].
  - rewrite <- !app_assoc. cbn [app]. apply R_rdg; [apply attr_angle|apply attr_no_quote|apply attr_value|].
    rewrite <- app_assoc. apply R_escaped, R_end_rdg, H.
Qed.
Lemma R_xml_app : forall rs s ev, R same s ev ->
  R same (xml_app rs ++ s) (element (lit "app") [] (flat_map (fun r => element (lit "rdg") [(lit "wit", lit "#" ++ fst r)] (chars (snd r))) rs) ++ ev).
Proof.
  intros rs s ev H. unfold xml_app. destruct rs as [|x rs].
  - destruct H as [A B]. split; [cbn [element flat_map app as_read]; rewrite <- A; reflexivity|cbn; split; discriminate].
  - rewrite <- !app_assoc. unfold element at 1. cbn [app]. apply R_app. rewrite <- app_assoc.
    apply (R_flat_map same (fun '(w, t) => xml_rdg w t)); [|apply R_end_app, H]. intros [w t] s' ev' H'. apply (R_xml_rdg (w, t)). exact H'.
Qed.
Lemma xml_parsed : forall cols, xml_parse (lit "<root>" ++ flat_map xml_app cols ++ lit "</root>") = as_read same (xml_document cols).
Proof.
  intros cols. unfold xml_parse, xml_events, xml_document, element at 1.
  assert (E : R same (lit "</root>") [End (lit "root")]) by (split; [reflexivity|cbn; split; discriminate]).
  pose proof (R_flat_map same _ _ cols _ _ R_xml_app E) as [A _].
  exact (f_equal (cons (Begin (lit "root") [])) A).
Qed.

(** Without carriage returns nothing changes. *)
Definition calm (value : str -> str) (e : event) : Prop :=
  match e with Char c => c <> 13%N | Begin _ atts => Forall (fun a => value (snd a) = snd a) atts | End _ => True end.
Lemma as_read_calm : forall value ev, Forall (calm value) ev -> as_read value ev = ev.
Proof.
  intros value ev H. induction H as [|e ev C H IH]; [reflexivity|]. destruct e as [n atts|n|c].
  - cbn [as_read]. rewrite IH. f_equal. f_equal. cbn [calm] in C. clear - C. induction C as [|[k v] l E C IH]; [reflexivity|]. cbn [map fst snd] in *. rewrite E, IH. reflexivity.
  - cbn [as_read]. rewrite IH. reflexivity.
  - rewrite as_read_char by exact C. rewrite IH. reflexivity.
Qed.
Lemma calm_chars : forall value s, ~ In 13%N s -> Forall (calm value) (chars s).
Proof. intros value s N. unfold chars. rewrite Forall_map, Forall_forall. intros c Hc E. subst. contradiction. Qed.
Lemma calm_element : forall value n atts ev, Forall (fun a => value (snd a) = snd a) atts -> Forall (calm value) ev -> Forall (calm value) (element n atts ev).
Proof. intros value n atts ev HA H. unfold element. constructor; [exact HA|]. apply Forall_app. split; [assumption|repeat constructor]. Qed.
Lemma calm_flat_map : forall {A} value (f : A -> list event) l, (forall x, In x l -> Forall (calm value) (f x)) -> Forall (calm value) (flat_map f l).
Proof.
  intros A value f l H. induction l as [|x l IH]; [constructor|]. cbn [flat_map]. apply Forall_app. split; [apply H; left; reflexivity|apply IH; intros y Hy; apply H; right; assumption].
Qed.

(** ** The TEI output *)
Lemma mini_flat : forall s, newlines (minidom_escape s) = minidom_escape (newlines s).
Proof.
  intros s. induction s as [|c s Nc IH|s IH|s Ns IH] using nl_ind; [reflexivity| | |].
  - rewrite (nl_cons c s) by assumption. unfold minidom_escape in *. cbn [flat_map].
    destruct (N.eqb_spec c 38) as [->|N1]; [rewrite <- IH; reflexivity|]. destruct (N.eqb_spec c 60) as [->|N2]; [rewrite <- IH; reflexivity|].
    destruct (N.eqb_spec c 34) as [->|N3]; [rewrite <- IH; reflexivity|]. destruct (N.eqb_spec c 62) as [->|N4]; [rewrite <- IH; reflexivity|].
    cbn [app]. rewrite nl_cons by assumption. rewrite IH. reflexivity.
  - rewrite nl_cr_lf. unfold minidom_escape in *. cbn [flat_map]. change (newlines (13%N :: 10%N :: flat_map (fun c => if N.eqb c 38 then lit "&amp;" else if N.eqb c 60 then lit "&lt;"
                     else if N.eqb c 34 then lit "&quot;" else if N.eqb c 62 then lit "&gt;" else [c]) s) = 10%N :: flat_map (fun c => if N.eqb c 38 then lit "&amp;" else if N.eqb c 60 then lit "&lt;"
                     else if N.eqb c 34 then lit "&quot;" else if N.eqb c 62 then lit "&gt;" else [c]) (newlines s)). rewrite nl_cr_lf, IH. reflexivity.
  - rewrite nl_cr by assumption. change (minidom_escape (13%N :: s)) with (13%N :: minidom_escape s). change (minidom_escape (10%N :: newlines s)) with (10%N :: minidom_escape (newlines s)).
    rewrite nl_cr; [rewrite IH; reflexivity|]. destruct s as [|c s]; [discriminate|]. cbn [hd_error] in Ns. unfold minidom_escape. cbn [flat_map].
    destruct (N.eqb_spec c 38) as [->|N1]; [discriminate|]. destruct (N.eqb_spec c 60) as [->|N2]; [discriminate|].
    destruct (N.eqb_spec c 34) as [->|N3]; [discriminate|]. destruct (N.eqb_spec c 62) as [->|N4]; [discriminate|]. exact Ns.
Qed.
Lemma mini_blank : forall s, map blank (minidom_escape s) = minidom_escape (map blank s).
Proof.
  intros s. unfold minidom_escape. induction s as [|c s IH]; [reflexivity|]. cbn [flat_map map]. rewrite map_app, IH. f_equal.
  destruct (N.eqb_spec c 38) as [->|N1]; [reflexivity|]. destruct (N.eqb_spec c 60) as [->|N2]; [reflexivity|].
  destruct (N.eqb_spec c 34) as [->|N3]; [reflexivity|]. destruct (N.eqb_spec c 62) as [->|N4]; [reflexivity|].
  cbn [map]. unfold blank. destruct ((c =? 9)%N || (c =? 10)%N); [reflexivity|]. apply N.eqb_neq in N1, N2, N3, N4. rewrite N1, N2, N3, N4. reflexivity.
Qed.
Lemma mini_value : forall s, as_value (minidom_escape s) = blanked s.
Proof. intros s. unfold as_value, blanked. rewrite mini_flat, mini_blank. apply value_minidom. Qed.
Lemma mini_angle : forall s, no_angle (minidom_escape s).
Proof.
  intros s. split; [|apply tame_minidom]. unfold minidom_escape. induction s as [|c s IH]; [tauto|]. cbn [flat_map]. rewrite in_app_iff. intros [C|C]; [|tauto]. revert C.
  destruct (N.eqb_spec c 38) as [->|N1]; [cbn; intuition discriminate|]. destruct (N.eqb_spec c 60) as [->|N2]; [cbn; intuition discriminate|].
  destruct (N.eqb_spec c 34) as [->|N3]; [cbn; intuition discriminate|]. destruct (N.eqb_spec c 62) as [->|N4]; [cbn; intuition discriminate|]. cbn. intuition.
Qed.

Lemma R_tei_rdg : forall r s ev, R blanked s ev -> R blanked (tei_rdg r ++ s) (rdg_events r ++ ev).
Proof.
  intros r s ev H. unfold tei_rdg, rdg_events, element. rewrite <- !app_assoc. cbn [app]. rewrite <- app_assoc.
  apply R_rdg; [apply mini_angle|apply tame_minidom|apply mini_value|]. apply R_minidom, R_end_rdg, H.
Qed.
Lemma R_item : forall i s ev, R blanked s ev -> R blanked (tei_item_xml i ++ s) (item_events i ++ ev).
Proof.
  intros [t|rs] s ev H; cbn [tei_item_xml item_events]; [apply R_minidom, H|]. destruct rs as [|x rs].
  - destruct H as [A B]. split; [cbn [element flat_map app as_read]; rewrite <- A; reflexivity|cbn; split; discriminate].
  - rewrite <- !app_assoc. unfold element at 1. cbn [app]. apply R_app. rewrite <- app_assoc. apply (R_flat_map blanked tei_rdg); [apply R_tei_rdg|apply R_end_app, H].
Qed.
Lemma tei_parsed : forall items, xml_parse (tei_xml items) = as_read blanked (element (lit "cx:apparatus") tei_root (flat_map item_events items)).
Proof.
  intros items. unfold xml_parse, xml_events, tei_xml. destruct items as [|x items]; [vm_compute; reflexivity|].
  assert (E : R blanked (lit "</cx:apparatus>") [End (lit "cx:apparatus")]) by (split; [reflexivity|cbn; split; discriminate]).
  pose proof (R_flat_map blanked _ _ (x :: items) _ _ R_item E) as [A _]. unfold element. 
  change (as_read blanked (Begin (lit "cx:apparatus") tei_root :: flat_map item_events (x :: items) ++ [End (lit "cx:apparatus")])) with
    (Begin (lit "cx:apparatus") (map (fun a => (fst a, blanked (snd a))) tei_root) :: as_read blanked (flat_map item_events (x :: items) ++ [End (lit "cx:apparatus")])).
  rewrite <- A. reflexivity.
Qed.

(** With indentation. *)
Definition pretty_events (i : tei_item) : list event :=
  match i with
  | TeiText s => chars (tab ++ s ++ lf)
  | TeiApp [] => chars tab ++ element (lit "app") [] [] ++ chars lf
  | TeiApp rs => chars tab ++ element (lit "app") [] (chars lf ++ flat_map (fun r => chars (tab ++ tab) ++ rdg_events r ++ chars lf) rs ++ chars tab) ++ chars lf
  end.
Lemma R_tab : forall value s ev, R value s ev -> R value ([c_tab] ++ s) (Char 9 :: ev).
Proof. intros value s ev H. apply (R_char value 9); [discriminate..|exact H]. Qed.
Lemma R_lf : forall value s ev, R value s ev -> R value ([c_lf] ++ s) (Char 10 :: ev).
Proof. intros value s ev H. apply (R_char value 10); [discriminate..|exact H]. Qed.
Lemma R_pretty : forall i s ev, R blanked s ev -> R blanked (tei_item_pretty i ++ s) (pretty_events i ++ ev).
Proof.
  intros [t|rs] s ev H; cbn [tei_item_pretty pretty_events]; [apply R_minidom, H|]. destruct rs as [|x rs].
  - unfold tab, lf. rewrite <- !app_assoc. cbn [chars map app element]. apply (R_tab blanked). destruct (R_lf blanked s ev H) as [A B].
    rewrite as_read_char in A by discriminate. split; [exact (f_equal (fun z => Begin (lit "app") [] :: End (lit "app") :: z) A)|cbn; split; discriminate].
  - unfold tab, lf. rewrite <- !app_assoc. cbn [chars map]. unfold element at 1. cbn [app]. apply (R_tab blanked), R_app, (R_lf blanked). rewrite <- !app_assoc.
    apply (R_flat_map blanked (fun r => [c_tab] ++ [c_tab] ++ tei_rdg r ++ [c_lf]) (fun r => Char 9 :: Char 9 :: rdg_events r ++ [Char 10])).
    + intros r s' ev' H'. rewrite <- !app_assoc. cbn [app]. apply (R_tab blanked), (R_tab blanked). rewrite <- app_assoc. apply R_tei_rdg, (R_lf blanked), H'.
    + cbn [app]. apply (R_tab blanked), R_end_app, (R_lf blanked), H.
Qed.
Definition pretty_document (items : list tei_item) : list event :=
  chars lf ++ element (lit "cx:apparatus") tei_root
    match items with
    | [] => []
    | [TeiText s] => chars s
    | _ => chars lf ++ flat_map pretty_events items
    end ++ chars lf.
Lemma R_end_lf : R blanked (lit "</cx:apparatus>" ++ lf) (End (lit "cx:apparatus") :: chars lf).
Proof. split; [vm_compute; reflexivity|cbn; split; discriminate]. Qed.
Lemma head_parse : forall s ev, R blanked s ev ->
  xml_parse (tei_head ++ lf ++ tei_open ++ lit ">" ++ s) = Char 10 :: Begin (lit "cx:apparatus") tei_root :: as_read blanked ev.
Proof. intros s ev [A _]. unfold xml_parse, xml_events. rewrite <- A. reflexivity. Qed.
Lemma root_read : forall ev, as_read blanked (Begin (lit "cx:apparatus") tei_root :: ev) = Begin (lit "cx:apparatus") tei_root :: as_read blanked ev.
Proof. intros ev. reflexivity. Qed.
Lemma head_read : forall ev, as_read blanked (Char 10 :: Begin (lit "cx:apparatus") tei_root :: ev) = Char 10 :: Begin (lit "cx:apparatus") tei_root :: as_read blanked ev.
Proof. intros ev. reflexivity. Qed.
Lemma pretty_parsed : forall items, xml_parse (tei_pretty items) = as_read blanked (pretty_document items).
Proof.
  assert (M : forall L, xml_parse (tei_head ++ lf ++ tei_open ++ lit ">" ++ lf ++ flat_map tei_item_pretty L ++ lit "</cx:apparatus>" ++ lf) =
    as_read blanked (chars lf ++ element (lit "cx:apparatus") tei_root (chars lf ++ flat_map pretty_events L) ++ chars lf)).
  { intros L. pose proof (R_lf blanked _ _ (R_flat_map blanked _ _ L _ _ R_pretty R_end_lf)) as H. rewrite (head_parse (lf ++ flat_map tei_item_pretty L ++ lit "</cx:apparatus>" ++ lf) _ H).
    unfold element. rewrite <- (head_read (Char 10 :: flat_map pretty_events L ++ End (lit "cx:apparatus") :: chars lf)). f_equal. cbn [chars lf map app]. rewrite <- !app_assoc. reflexivity. }
  intros items. unfold tei_pretty, pretty_document. destruct items as [|x items]; [vm_compute; reflexivity|].
  destruct x as [s|rs]; [|apply (M (TeiApp rs :: items))]. destruct items as [|y items]; [|apply (M (TeiText s :: y :: items))].
  rewrite (head_parse _ _ (R_minidom blanked s _ _ R_end_lf)). rewrite <- head_read. f_equal. unfold element. cbn [chars lf map app]. rewrite <- !app_assoc. reflexivity.
Qed.

(** White space other than blanks is irrelevant. *)
Definition W3 : list N := [9%N; 10%N; 13%N].
Definition value_in (value : str -> str) (e : event) : event :=
  match e with Begin n atts => Begin n (map (fun a => (fst a, value (snd a))) atts) | _ => e end.
Lemma without_read : forall value ev, without_chars W (as_read value ev) = map (value_in value) (without_chars W3 ev).
Proof.
  intros value ev. assert (G : forall n ev, length ev <= n -> without_chars W (as_read value ev) = map (value_in value) (without_chars W3 ev)); [|apply (G _ ev (Nat.le_refl _))].
  clear ev. induction n as [|n IH]; intros [|e ev] L; try reflexivity; cbn [length] in L; [lia|]. destruct e as [m atts|m|c].
  - change (value_in value (Begin m atts) :: without_chars W (as_read value ev) = value_in value (Begin m atts) :: map (value_in value) (without_chars W3 ev)).
    rewrite IH by lia. reflexivity.
  - change (End m :: without_chars W (as_read value ev) = End m :: map (value_in value) (without_chars W3 ev)). rewrite IH by lia. reflexivity.
  - destruct (cr_dec c) as [->|N].
    + change (without_chars W3 (Char 13 :: ev)) with (without_chars W3 ev). 
      assert (D : hd_error ev = Some (Char 10) \/ hd_error ev <> Some (Char 10)).
      { destruct ev as [|[m a|m|c] ev]; [right; discriminate|right; discriminate|right; discriminate|]. cbn [hd_error]. destruct (N.eqb_spec c 10) as [->|Nc]; [left; reflexivity|right; congruence]. }
      destruct D as [D|D].
      * destruct ev as [|e ev]; [discriminate|]. injection D as ->. change (as_read value (Char 13 :: Char 10 :: ev)) with (Char 10 :: as_read value ev).
        rewrite without_lf. rewrite IH by (cbn [length] in L; lia). reflexivity.
      * rewrite as_read_cr by assumption. rewrite without_lf. apply IH. lia.
    + rewrite as_read_char by assumption. apply N.eqb_neq in N.
      assert (E : forall l, without_chars l (Char c :: as_read value ev) = if existsb (N.eqb c) l then without_chars l (as_read value ev) else Char c :: without_chars l (as_read value ev)).
      { intros l. unfold without_chars. cbn [filter]. destruct (existsb (N.eqb c) l); reflexivity. }
      assert (E' : without_chars W3 (Char c :: ev) = if existsb (N.eqb c) W3 then without_chars W3 ev else Char c :: without_chars W3 ev).
      { unfold without_chars. cbn [filter]. destruct (existsb (N.eqb c) W3); reflexivity. }
      rewrite E, E'. unfold W at 1, W3 at 1. cbn [existsb]. rewrite N, !orb_false_r. rewrite IH by lia. destruct ((c =? 9)%N || (c =? 10)%N); reflexivity.
Qed.
Lemma without3_app : forall a b, without_chars W3 (a ++ b) = without_chars W3 a ++ without_chars W3 b.
Proof. intros. apply filter_app. Qed.
Lemma without3_tab : without_chars W3 (chars tab) = [].
Proof. reflexivity. Qed.
Lemma without3_lf : without_chars W3 (chars lf) = [].
Proof. reflexivity. Qed.
Lemma without3_element : forall n atts ev, without_chars W3 (element n atts ev) = Begin n atts :: without_chars W3 ev ++ [End n].
Proof. intros n atts ev. unfold element. change (Begin n atts :: without_chars W3 (ev ++ [End n]) = Begin n atts :: without_chars W3 ev ++ [End n]). rewrite without3_app. reflexivity. Qed.
Lemma pretty_irrelevant : forall i, without_chars W3 (pretty_events i) = without_chars W3 (item_events i).
Proof.
  intros [s|rs]; cbn [pretty_events item_events].
  - unfold chars. rewrite !map_app, !without3_app. change (without_chars W3 (map Char lf)) with (@nil event). rewrite app_nil_r. reflexivity.
  - destruct rs as [|x rs]; [reflexivity|]. fold rdg_events. rewrite !without3_app, !without3_element, !without3_app, without3_tab, without3_lf, !app_nil_r.
    cbn [app]. do 2 f_equal. generalize (x :: rs). intros l. induction l as [|y l IH]; [reflexivity|]. cbn [flat_map]. rewrite !without3_app, IH, without3_lf, app_nil_r. reflexivity.
Qed.
Lemma pretty_document_irrelevant : forall items,
  without_chars W3 (pretty_document items) = without_chars W3 (element (lit "cx:apparatus") tei_root (flat_map item_events items)).
Proof.
  assert (M : forall L, without_chars W3 (chars lf ++ element (lit "cx:apparatus") tei_root (chars lf ++ flat_map pretty_events L) ++ chars lf) =
    without_chars W3 (element (lit "cx:apparatus") tei_root (flat_map item_events L))).
  { intros L. rewrite !without3_app, !without3_element, !without3_app, without3_lf, app_nil_r. cbn [app]. do 2 f_equal.
    induction L as [|i L IH]; [reflexivity|]. cbn [flat_map]. rewrite !without3_app, IH, pretty_irrelevant. reflexivity. }
  intros items. unfold pretty_document. destruct items as [|x items]; [reflexivity|].
  destruct x as [s|rs]; [|apply (M (TeiApp rs :: items))]. destruct items as [|y items]; [|apply (M (TeiText s :: y :: items))].
  rewrite !without3_app, without3_lf, app_nil_r. cbn [app flat_map item_events]. rewrite app_nil_r. reflexivity.
Qed.
Lemma pretty_read : forall items, without_chars W (xml_parse (tei_pretty items)) =
  without_chars W (as_read blanked (element (lit "cx:apparatus") tei_root (flat_map item_events items))).
Proof. intros items. rewrite pretty_parsed, !without_read, pretty_document_irrelevant. reflexivity. Qed.

(** ** Both outputs of collate *)
Section Outputs.
  Variables (cc : cclass) (topo : graph -> res (list vid)) (ratio : str -> str -> Q).
  Hypothesis TO : topo_ok topo.

  Theorem xml_of : forall c o s, good_sigla c -> collate cc topo ratio c o = Ok (OXml s) ->
    exists t cols, collate cc topo ratio c (set_output o (lit "table")) = Ok (OTable t) /\
      Forall2 readings_of (t_columns t) cols /\ xml_parse s = as_read same (xml_document cols).
  Proof.
    intros c o s G H. destruct (collate_pair cc topo ratio c o _ H I) as [t [HT E]].
    pose proof (table_good cc topo ratio TO c _ t G HT) as GT. cbn in E. unfold export_xml in E. apply bind_ok in E as [cols [H1 H2]]. injection H2 as <-.
    exists t, cols. split; [exact HT|]. split; [|apply xml_parsed].
    apply mapM_Forall2 in H1. pose proof (gt_keys _ _ GT) as K. clear H. revert K H1. generalize (t_columns t). intros l K F.
    induction F as [|a b la lb E F IH]; [constructor|]. inversion K as [|? ? [K1 _] K2]; subst. constructor; [apply column_readings_of; assumption|apply IH; assumption].
  Qed.

  Theorem tei_parsed_of : forall c o s, good_sigla c -> collate cc topo ratio c o = Ok (OTei s) ->
    exists t ps, collate cc topo ratio c (set_output o (lit "table")) = Ok (OTable t) /\
      Forall2 (tei_right cc (map w_sigil c)) (t_columns t) ps /\
      if o_indent o then without_chars W (xml_parse s) = without_chars W (as_read blanked (tei_document ps)) else xml_parse s = as_read blanked (tei_document ps).
  Proof.
    intros c o s G H. destruct (collate_pair cc topo ratio c o _ H I) as [t [HT E]].
    pose proof (table_good cc topo ratio TO c _ t G HT) as GT. destruct (collate_not_empty cc topo ratio c o _ H) as [N _].
    assert (NW : map w_sigil c <> []) by (intros C; apply map_eq_nil in C; contradiction).
    cbn in E. unfold export_tei in E. apply bind_ok in E as [items [H1 H2]]. injection H2 as <-.
    unfold tei_items in H1. apply bind_ok in H1 as [l [H1 H2]]. injection H2 as <-. apply mapM_Forall2 in H1.
    assert (LR : length (t_rows t) = length (map w_sigil c)) by (rewrite (gt_rows _ _ GT), map_length; reflexivity). rewrite LR in H1.
    assert (X : exists ps, Forall2 (tei_right cc (map w_sigil c)) (t_columns t) ps /\ concat l = flat_map items_of ps).
    { clear H. pose proof (gt_keys _ _ GT) as FC. revert FC H1. generalize (t_columns t). intros cols FC F. induction F as [|a b la lb E F IH]; [exists []; split; [constructor|reflexivity]|].
      inversion FC as [|? ? [F1 F2] FC']; subst. destruct (IH FC') as [ps [P1 P2]].
      destruct (tei_column_spec cc (map w_sigil c) a b NW (proj1 G) F1 F2 E) as [p [Q1 Q2]]. exists (p :: ps). split; [constructor; assumption|].
      cbn [concat flat_map]. rewrite Q1, P2. reflexivity. }
    destruct X as [ps [P1 P2]]. exists t, ps. split; [exact HT|]. split; [exact P1|]. unfold tei_document. fold tei_root. rewrite <- items_events, P2.
    destruct (o_indent o); [apply pretty_read|apply tei_parsed].
  Qed.

  (** Readings come from the texts, and their sigla are those of the witnesses. *)
  Lemma readings_clean : forall c o t col rs sg x, good_sigla c -> texts_without_cr c -> collate cc topo ratio c o = Ok (OTable t) ->
    In col (t_columns t) -> readings_of col rs -> In (sg, x) rs -> ~ In 13%N x /\ In sg (map w_sigil c).
  Proof.
    intros c o t col rs sg x G NC HT Hc [_ [R1 R2]] Hi. destruct (R2 sg x Hi) as [ts [T1 [l [L ->]]]]. split.
    - intros C. apply in_concat in C as [y [Y1 Y2]]. destruct (cells_input cc topo ratio TO c o t G HT) as [CI _].
      assert (Q : exists tk, In tk ts /\ dget str_eqb (lit "t") (tk_data tk) = Some (JStr y)).
      { clear - L Y1. induction L as [|a b la lb E L IH]; [contradiction|]. destruct Y1 as [<-|Y1]; [exists a; split; [left; reflexivity|assumption]|].
        destruct (IH Y1) as [tk [P Q]]. exists tk. split; [right; assumption|assumption]. }
      destruct Q as [tk [Q1 Q2]]. destruct (CI col sg ts tk Hc T1 Q1) as [w [t0 [W1 [W2 [W3 W4]]]]].
      rewrite (came_from_text _ _ _ _ W4) in Q2 by (apply lit_neq; reflexivity). apply (NC w t0 y W1 W3 Q2 Y2).
    - pose proof (table_good cc topo ratio TO c _ t G HT) as GT. pose proof (gt_keys _ _ GT) as K. rewrite Forall_forall in K.
      apply (proj2 (K col Hc)). apply in_map_iff. exists (sg, ts). auto.
  Qed.
End Outputs.

(** The sigla in the attribute wit. *)
Lemma wit_pieces : forall sgs, sgs <> [] -> Forall (fun s => ~ In 32%N s) sgs ->
  pieces 32 (str_join (lit " ") (map (fun s => lit "#" ++ s) sgs)) = map (fun s => lit "#" ++ s) sgs.
Proof.
  assert (P1 : forall sep s, ~ In sep s -> pieces sep s = [s]).
  { intros sep s. induction s as [|c s IH]; intros N; [reflexivity|]. cbn [pieces]. cbn [In] in N. destruct (N.eqb_spec c sep) as [->|_]; [tauto|]. rewrite IH by tauto. reflexivity. }
  intros sgs N F. induction F as [|s sgs Hs F IH]; [congruence|]. assert (Hs' : ~ In 32%N (lit "#" ++ s)) by (cbn; intuition discriminate).
  destruct sgs as [|s2 sgs]; [apply P1; assumption|]. cbn [map]. cbn [map] in IH. 
  change (str_join (lit " ") ((lit "#" ++ s) :: (lit "#" ++ s2) :: map (fun s => lit "#" ++ s) sgs)) with
    ((lit "#" ++ s) ++ 32%N :: str_join (lit " ") ((lit "#" ++ s2) :: map (fun s => lit "#" ++ s) sgs)).
  rewrite pieces_app by assumption. f_equal. apply IH. discriminate.
Qed.
Lemma blanked_plain : forall s, (forall x, In x [9%N; 10%N; 13%N] -> ~ In x s) -> blanked s = s.
Proof.
  intros s N. unfold blanked. rewrite newlines_id by (apply N; cbn; tauto). rewrite <- (map_id s) at 2. apply map_ext_in. intros c Hc. unfold blank.
  destruct (N.eqb_spec c 9) as [->|_]; [exfalso; apply (N 9%N); cbn; tauto|]. destruct (N.eqb_spec c 10) as [->|_]; [exfalso; apply (N 10%N); cbn; tauto|]. reflexivity.
Qed.
Lemma In_str_join : forall x sep l, In x (str_join sep l) -> In x sep \/ exists s, In s l /\ In x s.
Proof.
  intros x sep l. induction l as [|a l IH]; [contradiction|]. destruct l as [|b l]; [intros H; right; exists a; split; [left; reflexivity|exact H]|].
  change (str_join sep (a :: b :: l)) with (a ++ sep ++ str_join sep (b :: l)). rewrite !in_app_iff. intros [H|[H|H]]; [right; exists a; split; [left; reflexivity|assumption]|left; assumption|].
  destruct (IH H) as [H'|[s [S1 S2]]]; [left; assumption|right; exists s; split; [right; assumption|assumption]].
Qed.
