(** Proofs about the html tables (C92). *)
From Verif Require Import Py Lib TokenModel TokenSpec SuffixModel IndexModel GraphModel AlignModel TableModel NearModel ExportModel CollateModel GraphSpec TableSpec CollateSpec
  ExportSpec HtmlModel HtmlSpec TokenProof OutputProof NearBest ExportProof DrawProof HtmlProof HtmlLibModel HtmlLibSpec.
From Coq Require Import Lia.
Open Scope list_scope.
Open Scope nat_scope.

(** ** Rendering again *)
Lemma dset_same : forall (d : attribs) k v, dget str_eqb k d = Some v -> dset str_eqb k v d = d.
Proof.
  induction d as [|[k' v'] d IH]; intros k v H; [discriminate H|]. cbn [dget dset] in *. destruct (str_eqb k k') eqn:E.
  - apply str_eqb_ok in E. congruence.
  - rewrite IH by assumption. reflexivity.
Qed.
Lemma put_other : forall n n' v d, str_eqb n' n = false -> dget str_eqb n (put n' v d) = dget str_eqb n d.
Proof. intros n n' v d H. unfold put. destruct v as [[|c s]|]; try reflexivity. rewrite (dget_set _ str_eqb_ok), H. reflexivity. Qed.
Lemma put_here : forall n v d c s, v = Some (c :: s) -> dget str_eqb n (put n v d) = Some (c :: s).
Proof. intros n v d c s ->. unfold put. apply (dget_set_same _ str_eqb_ok). Qed.
Lemma put_again : forall n v d, (forall c s, v = Some (c :: s) -> dget str_eqb n d = Some (c :: s)) -> put n v d = d.
Proof. intros n v d H. unfold put. destruct v as [[|c s]|]; try reflexivity. apply dset_same. apply H. reflexivity. Qed.
Ltac found := intros x s Hv; repeat (rewrite put_other by reflexivity); apply put_here; exact Hv.

Lemma cell_attribs_again : forall c, 
  put (lit "style") (hc_style c) (put (lit "valign") (hc_valign c) (put (lit "charoff") (hc_charoff c) (put (lit "char") (hc_char c)
    (put (lit "align") (hc_align c) (put (lit "width") (hc_width c) (put (lit "bgcolor") (hc_bgcolor c) (cell_attribs c))))))) = cell_attribs c.
Proof.
  intros c. assert (G : forall n v, (forall x s, v = Some (x :: s) -> dget str_eqb n (cell_attribs c) = Some (x :: s)) -> put n v (cell_attribs c) = cell_attribs c) by (intros; apply put_again; assumption).
  rewrite (G (lit "bgcolor")) by (unfold cell_attribs; found). rewrite (G (lit "width")) by (unfold cell_attribs; found). rewrite (G (lit "align")) by (unfold cell_attribs; found).
  rewrite (G (lit "char")) by (unfold cell_attribs; found). rewrite (G (lit "charoff")) by (unfold cell_attribs; found). rewrite (G (lit "valign")) by (unfold cell_attribs; found).
  rewrite (G (lit "style")) by (unfold cell_attribs; found). reflexivity.
Qed.
Lemma cell_again : forall c, cell_str (snd (cell_str c)) = cell_str c.
Proof.
  intros c. assert (E : cell_attribs (snd (cell_str c)) = cell_attribs c) by (apply (cell_attribs_again c)).
  unfold cell_str at 1. rewrite E. reflexivity.
Qed.
Lemma cell_keeps : forall c, let c' := snd (cell_str c) in
  hc_align c' = hc_align c /\ hc_char c' = hc_char c /\ hc_charoff c' = hc_charoff c /\ hc_valign c' = hc_valign c /\ hc_style c' = hc_style c.
Proof. intros c. repeat split. Qed.

Lemma from_column_again : forall col x k y, from_column col x k = Ok y -> from_column col y k = Ok y.
Proof.
  intros col x k y H. destruct col as [|a col]; [reflexivity|]. destruct x as [s|]; [injection H as <-; reflexivity|].
  destruct y as [s|]; [reflexivity|]. exact H.
Qed.

Lemma hcell_eta : forall c, {| hc_text := hc_text c; hc_bgcolor := hc_bgcolor c; hc_header := hc_header c; hc_width := hc_width c; hc_align := hc_align c;
  hc_char := hc_char c; hc_charoff := hc_charoff c; hc_valign := hc_valign c; hc_style := hc_style c; hc_attribs := hc_attribs c |} = c.
Proof. intros []. reflexivity. Qed.

Lemma apply_again : forall k col c c', apply_columns k col c = Ok c' -> apply_columns k col (snd (cell_str c')) = Ok (snd (cell_str c')).
Proof.
  intros k col c c' H. unfold apply_columns in H. apply bind_ok in H as [a [H1 H]]. apply bind_ok in H as [ch [H2 H]]. apply bind_ok in H as [co [H3 H]].
  apply bind_ok in H as [v [H4 H]]. apply bind_ok in H as [s [H5 H]]. injection H as <-.
  unfold apply_columns. unfold cell_str. cbn [snd hc_bgcolor hc_width hc_align hc_char hc_charoff hc_valign hc_style hc_attribs hc_text hc_header].
  rewrite (from_column_again _ _ _ _ H1), (from_column_again _ _ _ _ H2), (from_column_again _ _ _ _ H3), (from_column_again _ _ _ _ H4), (from_column_again _ _ _ _ H5).
  reflexivity.
Qed.

(** The strings of a row stay where they are. *)
Definition same_item (i j : hitem) : Prop := match i, j with HText s, HText s' => s = s' | HCell _, HCell _ => True | _, _ => False end.
Lemma first_place_same : forall s l l', Forall2 same_item l l' -> first_place s l = first_place s l'.
Proof.
  intros s l l' F. induction F as [|i j l l' H F IH]; [reflexivity|]. cbn [first_place]. rewrite IH.
  destruct i, j; cbn [same_item] in H; try contradiction; subst; reflexivity.
Qed.
Lemma items_same : forall cells h k l n s l', items_str cells h k n l = Ok (s, l') -> Forall2 same_item l l'.
Proof.
  intros cells h k. induction l as [|i l IH]; intros n s l' H; cbn [items_str] in H; [injection H as <- <-; constructor|].
  apply bind_ok in H as [[a i'] [H1 H]]. apply bind_ok in H as [[b r] [H2 H]]. injection H as <- <-. constructor; [|eapply IH; eassumption].
  unfold item_str in H1. destruct i as [t|c]; apply bind_ok in H1 as [c' [_ H1]]; injection H1 as <- <-; [reflexivity|exact I].
Qed.
Lemma items_again : forall cells cells' h k, Forall2 same_item cells cells' -> forall l n s l', items_str cells h k n l = Ok (s, l') ->
  items_str cells' h k n l' = Ok (s, l').
Proof.
  intros cells cells' h k F. induction l as [|i l IH]; intros n s l' H; cbn [items_str] in H; [injection H as <- <-; reflexivity|].
  apply bind_ok in H as [[a i'] [H1 H]]. apply bind_ok in H as [[b r] [H2 H]]. injection H as <- <-. cbn [items_str].
  assert (E : item_str cells' h k n i' = Ok (a, i')).
  { unfold item_str in *. destruct i as [t|c]; apply bind_ok in H1 as [c' [A H1]]; injection H1 as <- <-; cbn [index_of] in *.
    - rewrite <- (first_place_same t _ _ F), A. reflexivity.
    - change (bind (apply_columns k n (snd (cell_str c'))) (fun c2 => Ok (fst (cell_str c2), HCell (snd (cell_str c2)))) = Ok (fst (cell_str c'), HCell (snd (cell_str c')))).
      pose proof (apply_again _ _ _ _ A) as Q. rewrite Q. cbn [bind]. rewrite cell_again. reflexivity. }
  rewrite E. cbn [bind]. rewrite (IH _ _ _ H2). reflexivity.
Qed.
Lemma row_again : forall r s r', row_str r = Ok (s, r') -> row_str r' = Ok (s, r') /\ hr_cols r' = hr_cols r.
Proof.
  intros r s r' H. unfold row_str in H. destruct (hr_cells r) as [cells|] eqn:E; [|discriminate H]. apply bind_ok in H as [[a cells'] [H1 H]]. injection H as <- <-.
  split; [|reflexivity]. unfold row_str. cbn [hr_cells hr_header hr_cols hr_bgcolor hr_attribs].
  rewrite (items_again cells cells' _ _ (items_same _ _ _ _ _ _ _ H1) _ _ _ _ H1). cbn [bind].
  rewrite (put_again (lit "bgcolor") (hr_bgcolor r)); [reflexivity|]. found.
Qed.
Lemma inherit_again : forall r t, inherit_cols (inherit_cols r t) t = inherit_cols r t.
Proof.
  intros r t. unfold inherit_cols. cbn [k_align k_valign k_char k_charoff k_styles].
  assert (G : forall a b, inherit (inherit a b) b = inherit a b) by (intros [|x a] b; [destruct b; reflexivity|reflexivity]). rewrite !G. reflexivity.
Qed.
Lemma line_again : forall h k l s l', line_str h k l = Ok (s, l') -> line_str h k l' = Ok (s, l').
Proof.
  intros h k l s l' H. unfold line_str in *. destruct l as [cells|r]; apply bind_ok in H as [[a r'] [H1 H]].
  - injection H as <- <-. unfold row_str in H1. cbn [with_cols new_row hr_cells hr_header hr_cols hr_bgcolor hr_attribs put] in H1.
    apply bind_ok in H1 as [[b cells'] [H1 H2]]. injection H2 as <- <-. cbn [hr_cells]. unfold row_str. cbn [with_cols new_row hr_cells hr_header hr_cols hr_bgcolor hr_attribs put].
    rewrite (items_again cells cells' _ _ (items_same _ _ _ _ _ _ _ H1) _ _ _ _ H1). reflexivity.
  - injection H as <- <-. destruct (row_again _ _ _ H1) as [A B]. assert (E : with_cols r' k = r').
    { unfold with_cols. rewrite B. cbn [with_cols hr_cols]. rewrite inherit_again. cbn [with_cols hr_cols] in B. rewrite <- B. destruct r'. reflexivity. }
    rewrite E, A. reflexivity.
Qed.
Lemma lines_again : forall k l s l', lines_str k l = Ok (s, l') -> lines_str k l' = Ok (s, l').
Proof.
  intros k. induction l as [|x l IH]; intros s l' H; cbn [lines_str] in H; [injection H as <- <-; reflexivity|].
  apply bind_ok in H as [[a x'] [H1 H]]. apply bind_ok in H as [[b r] [H2 H]]. injection H as <- <-. cbn [lines_str].
  rewrite (line_again _ _ _ _ _ H1). cbn [bind]. rewrite (IH _ _ H2). reflexivity.
Qed.
Lemma header_again : forall h s h', header_str h = Ok (s, h') -> header_str h' = Ok (s, h').
Proof.
  intros h s h' H. unfold header_str in H. destruct h as [[[|i cells]|r]|]; try (injection H as <- <-; reflexivity); apply bind_ok in H as [[a l'] [H1 H]]; injection H as <- <-.
  - pose proof (line_again _ _ _ _ _ H1) as A. destruct l' as [[|j cells']|r']; cbn [header_str]; try (rewrite A; reflexivity).
    exfalso. unfold line_str in H1. apply bind_ok in H1 as [[b r'] [H1 H2]]. unfold row_str in H1. cbn [with_cols new_row hr_cells] in H1.
    apply bind_ok in H1 as [[d cells'] [H1 H3]]. injection H3 as <- <-. cbn [hr_cells] in H2. injection H2 as _ E2. subst cells'. apply items_same in H1. inversion H1.
  - pose proof (line_again _ _ _ _ _ H1) as A. unfold line_str in H1. apply bind_ok in H1 as [[b r'] [_ H2]]. injection H2 as <- <-. cbn [header_str]. rewrite A. reflexivity.
Qed.
Definition table_attribs (b s w sp p : option str) (d : attribs) : attribs :=
  put (lit "cellpadding") p (put (lit "cellspacing") sp (put (lit "width") w (put (lit "style") s (put (lit "border") b d)))).
Lemma table_attribs_again : forall b s w sp p d,
  table_attribs b s w sp p (table_attribs b s w sp p d) = table_attribs b s w sp p d.
Proof.
  intros b st w sp p d. assert (G : forall n v, (forall x y, v = Some (x :: y) -> dget str_eqb n (table_attribs b st w sp p d) = Some (x :: y)) -> put n v (table_attribs b st w sp p d) = table_attribs b st w sp p d) by (intros; apply put_again; assumption).
  unfold table_attribs at 1. rewrite (G (lit "border")) by (unfold table_attribs; found). rewrite (G (lit "style")) by (unfold table_attribs; found). rewrite (G (lit "width")) by (unfold table_attribs; found).
  rewrite (G (lit "cellspacing")) by (unfold table_attribs; found). rewrite (G (lit "cellpadding")) by (unfold table_attribs; found). reflexivity.
Qed.
Theorem table_again : forall t s t', table_str t = Ok (s, t') -> table_str t' = Ok (s, t').
Proof.
  intros t s0 t' H. unfold table_str in H. apply bind_ok in H as [[h header] [H1 H]]. apply bind_ok in H as [[b rows] [H2 H]]. apply ok_inj in H. pose proof (f_equal fst H) as Hs. pose proof (f_equal snd H) as Ht. cbn [fst snd] in Hs, Ht. subst s0 t'. clear H.
  unfold table_str. cbn [ht_rows ht_border ht_style ht_width ht_cellspacing ht_cellpadding ht_attribs ht_header ht_colwidth ht_cols].
  rewrite (header_again _ _ _ H1). cbn [bind]. rewrite (lines_again _ _ _ _ H2). cbn [bind].
  pose proof (table_attribs_again (ht_border t) (ht_style t) (ht_width t) (ht_cellspacing t) (ht_cellpadding t) (ht_attribs t)) as E. unfold table_attribs in E.
  cbv zeta. rewrite E. reflexivity.
Qed.

(** ** Reading *)
Definition reads (s : str) (ev : list event) : Prop := forall rest, xml_reader InText (s ++ rest) = ev ++ xml_reader InText rest.
Lemma reads_app : forall a b e f, reads a e -> reads b f -> reads (a ++ b) (e ++ f).
Proof. intros a b e f A B rest. rewrite <- !app_assoc. rewrite A, B. reflexivity. Qed.
Lemma reads_eq : forall a b e, a = b -> reads a e -> reads b e.
Proof. intros a b e ->. exact (fun H => H). Qed.
Lemma reads_nil : reads [] [].
Proof. intros rest. reflexivity. Qed.
Lemma reads_plain : forall s, no_markup s -> reads s (chars s).
Proof. intros s N rest. apply read_plain_text. exact N. Qed.
Lemma reads_concat : forall {A} (f : A -> str) (g : A -> list event) l, (forall a, In a l -> reads (f a) (g a)) -> reads (concat (map f l)) (flat_map g l).
Proof.
  intros A f g l H. induction l as [|a l IH]; [apply reads_nil|]. cbn [map concat flat_map]. apply reads_app; [apply H; left; reflexivity|]. apply IH. intros b Hb. apply H. right. exact Hb.
Qed.

Definition plain_attribs (d : attribs) : Prop := forall k v, In (k, v) d -> plain_name k /\ plain_value v.
Lemma value_plain : forall v, plain_value v -> attribute_value None v = v.
Proof.
  induction v as [|c v IH]; intros P; [reflexivity|]. cbn [attribute_value]. destruct (N.eqb_spec c 38) as [->|_]; [destruct (P 38%N (or_introl eq_refl)) as [_ [Q _]]; congruence|].
  rewrite IH; [reflexivity|]. intros x Hx. apply P. right. exact Hx.
Qed.
Lemma name_plain : forall k, plain_name k -> filter (fun c => negb (N.eqb c 32 || N.eqb c 61)) (lit " " ++ k ++ lit "=") = k.
Proof.
  intros k P. change (lit " ") with [32%N]. change (lit "=") with [61%N]. cbn [app filter]. change (negb ((32 =? 32)%N || (32 =? 61)%N)) with false. cbv iota. induction k as [|c k IH]; [reflexivity|].
  cbn [app filter]. destruct (P c (or_introl eq_refl)) as [A [_ [B _]]]. apply N.eqb_neq in A, B. rewrite A, B. cbn [orb negb]. f_equal. apply IH. intros x Hx. apply P. right. exact Hx.
Qed.
Lemma attribs_cons : forall k v d, attribs_text ((k, v) :: d) = (lit " " ++ k ++ lit "=") ++ 34%N :: v ++ 34%N :: attribs_text d.
Proof. intros k v d. unfold attribs_text. cbn [map concat]. unfold dq. rewrite <- !app_assoc. reflexivity. Qed.
Lemma attributes_read : forall d, plain_attribs d -> attributes (pieces 34 (attribs_text d)) = d.
Proof.
  induction d as [|[k v] d IH]; intros P; [reflexivity|]. rewrite attribs_cons. destruct (P k v (or_introl eq_refl)) as [PK PV].
  rewrite pieces_app, pieces_app.
  - cbn [attributes]. rewrite name_plain, value_plain by assumption. rewrite IH; [reflexivity|]. intros k' v' H. apply P. right. exact H.
  - intros H. destruct (PV _ H) as [Q _]. congruence.
  - rewrite !in_app_iff. cbn. intros [[H|H]|[H|[H|H]]]; try discriminate H; try contradiction. destruct (PK _ H) as [_ [Q _]]. congruence.
Qed.
Lemma attribs_no_end : forall d, plain_attribs d -> ~ In 62%N (attribs_text d).
Proof.
  induction d as [|[k v] d IH]; intros P; [intros []|]. rewrite attribs_cons. destruct (P k v (or_introl eq_refl)) as [PK PV].
  assert (P' : plain_attribs d) by (intros k' v' H; apply P; right; exact H). specialize (IH P').
  rewrite !in_app_iff. cbn [In]. rewrite in_app_iff. cbn [In lit]. intros [[[H|H]|[H|[H|H]]]|[H|[H|[H|H]]]]; try discriminate H; try contradiction.
  - destruct (PK _ H) as [_ [_ [_ Q]]]. congruence.
  - destruct (PV _ H) as [_ [_ Q]]. congruence.
Qed.
Lemma attribs_last : forall d, attribs_text d = [] \/ exists a, attribs_text d = a ++ [34%N].
Proof.
  induction d as [|[k v] d IH]; [left; reflexivity|]. right. rewrite attribs_cons. destruct IH as [E|[a E]]; rewrite E.
  - exists ((lit " " ++ k ++ lit "=") ++ 34%N :: v). rewrite <- !app_assoc. reflexivity.
  - exists ((lit " " ++ k ++ lit "=") ++ 34%N :: v ++ 34%N :: a). rewrite <- !app_assoc. cbn [app]. rewrite <- !app_assoc. reflexivity.
Qed.
(** Letters only. *)
Definition letters (name : str) : Prop := name <> [] /\ forall c, In c name -> c <> 32%N /\ c <> 47%N /\ c <> 63%N /\ c <> 62%N.
Ltac is_letters := let c := fresh "c" in let Hc := fresh "Hc" in split; [discriminate|]; intros c Hc; cbn in Hc; repeat (destruct Hc as [<-|Hc]; [repeat split; discriminate|]); destruct Hc.
Lemma span_name : forall name d, letters name -> span (fun c => negb (N.eqb c 32 || N.eqb c 47)) (name ++ attribs_text d) = (name, attribs_text d).
Proof.
  intros name d [_ L]. induction name as [|c name IH].
  - destruct d as [|[k v] d]; [reflexivity|]. rewrite attribs_cons. reflexivity.
  - cbn [app span]. destruct (L c (or_introl eq_refl)) as [A [B _]]. apply N.eqb_neq in A, B. rewrite A, B. cbn [orb negb]. rewrite IH; [reflexivity|]. intros x Hx. apply L. right. exact Hx.
Qed.
Lemma tag_name : forall name d, letters name -> plain_attribs d -> tag (name ++ attribs_text d) = [Begin name d].
Proof.
  intros name d L P. pose proof (span_name name d L) as SP. pose proof (attributes_read d P) as A.
  assert (R : match rev (name ++ attribs_text d) with 47%N :: _ => [End name] | _ => [] end = []).
  { destruct (rev (name ++ attribs_text d)) as [|c l] eqn:E; [reflexivity|]. destruct (N.eqb_spec c 47) as [->|N].
    - exfalso. apply (f_equal (@rev N)) in E. rewrite rev_involutive in E. cbn [rev] in E. destruct (attribs_last d) as [F|[a F]]; rewrite F in E.
      + rewrite app_nil_r in E. destruct L as [_ L]. assert (I : In 47%N name) by (rewrite E, in_app_iff; right; left; reflexivity). destruct (L _ I) as [_ [Q _]]. congruence.
      + rewrite app_assoc in E. apply app_inj_tail in E as [_ E]. discriminate E.
    - destruct c as [|[[[[[[]|[]|]|[[]|[]|]|]|[[[]|[]|]|[[]|[]|]|]|]|[[[[]|[]|]|[[]|[]|]|]|[[[]|[]|]|[[]|[]|]|]|]|]|[[[[[]|[]|]|[[]|[]|]|]|[[[]|[]|]|[[]|[]|]|]|]|[[[[]|[]|]|[[]|[]|]|]|[[[]|[]|]|[[]|[]|]|]|]|]|]]; try reflexivity; congruence. }
  destruct name as [|c name]; [destruct L as [L _]; congruence|]. destruct L as [_ L]. destruct (L c (or_introl eq_refl)) as [_ [N1 [N2 _]]].
  unfold tag. cbn [app] in *. rewrite SP, R, A.
  destruct (N.eqb_spec c 47); [congruence|]. destruct (N.eqb_spec c 63); [congruence|]. 
  destruct c as [|[[[[[[]|[]|]|[[]|[]|]|]|[[[]|[]|]|[[]|[]|]|]|]|[[[[]|[]|]|[[]|[]|]|]|[[[]|[]|]|[[]|[]|]|]|]|]|[[[[[]|[]|]|[[]|[]|]|]|[[[]|[]|]|[[]|[]|]|]|]|[[[[]|[]|]|[[]|[]|]|]|[[[]|[]|]|[[]|[]|]|]|]|]|]]; try reflexivity; congruence.
Qed.
Lemma reads_open : forall name d, letters name -> plain_attribs d -> reads (lit "<" ++ name ++ attribs_text d ++ lit ">") [Begin name d].
Proof.
  intros name d L P rest. rewrite <- !app_assoc. change (lit "<" ++ name ++ attribs_text d ++ lit ">" ++ rest) with (60%N :: name ++ attribs_text d ++ 62%N :: rest).
  rewrite (app_assoc name). rewrite read_tag, tag_name by assumption || (rewrite in_app_iff; intros [H|H]; [destruct L as [_ L]; destruct (L _ H) as [_ [_ [_ Q]]]; congruence|exact (attribs_no_end d P H)]).
  reflexivity.
Qed.
Lemma reads_close : forall name, letters name -> reads (lit "</" ++ name ++ lit ">") [End name].
Proof.
  intros name [_ L] rest. rewrite <- !app_assoc. change (lit "</" ++ name ++ lit ">" ++ rest) with (60%N :: (47%N :: name) ++ 62%N :: rest).
  rewrite read_tag; [reflexivity|]. intros [H|H]; [discriminate H|]. destruct (L _ H) as [_ [_ [_ Q]]]. congruence.
Qed.
Lemma reads_element : forall name d body ev, letters name -> plain_attribs d -> reads body ev ->
  reads (lit "<" ++ name ++ attribs_text d ++ lit ">" ++ body ++ lit "</" ++ name ++ lit ">") (element name d ev).
Proof.
  intros name d body ev L P B. replace (lit "<" ++ name ++ attribs_text d ++ lit ">" ++ body ++ lit "</" ++ name ++ lit ">")
    with ((lit "<" ++ name ++ attribs_text d ++ lit ">") ++ body ++ lit "</" ++ name ++ lit ">") by (rewrite <- !app_assoc; reflexivity).
  unfold element. change (Begin name d :: ev ++ [End name]) with ([Begin name d] ++ ev ++ [End name]).
  apply reads_app; [apply reads_open; assumption|]. apply reads_app; [exact B|]. apply reads_close. exact L.
Qed.
Lemma reads_const : forall s, no_markup s -> reads s (chars s). Proof. exact reads_plain. Qed.
Ltac no_mark := repeat split; cbn; intuition discriminate.

(** ** The attributes *)
Lemma put_new : forall n v d, ~ In n (map fst d) -> put n v d = d ++ given n v.
Proof. intros n v d H. unfold put, given. destruct v as [[|c s]|]; rewrite ?app_nil_r; try reflexivity. apply dset_new; [apply str_eqb_ok|exact H]. Qed.
Lemma given_key : forall n n' v, In n (map fst (given n' v)) -> n = n'.
Proof. intros n n' [[|c s]|]; cbn; try tauto. intros [H|[]]. congruence. Qed.
Ltac absent F := rewrite ?map_app, ?in_app_iff; intros HH;
  repeat match type of HH with _ \/ _ => destruct HH as [HH|HH] end;
  try (apply given_key in HH; discriminate HH);
  rewrite in_map_iff in HH; destruct HH as [[kk vv] [EE HH]]; cbn [fst] in EE; subst kk; apply F in HH as [HH _]; apply HH; cbn; tauto.
Definition cell_attributes (c : hcell) : attribs :=
  hc_attribs c ++ given (lit "bgcolor") (hc_bgcolor c) ++ given (lit "width") (hc_width c) ++ given (lit "align") (hc_align c) ++
  given (lit "char") (hc_char c) ++ given (lit "charoff") (hc_charoff c) ++ given (lit "valign") (hc_valign c) ++ given (lit "style") (hc_style c).
Lemma cell_attributes_ok : forall c, further cell_names (hc_attribs c) -> cell_attribs c = cell_attributes c.
Proof.
  intros c [_ F]. unfold cell_attribs, cell_attributes.
  rewrite (put_new (lit "bgcolor")) by absent F. rewrite (put_new (lit "width")) by absent F. rewrite (put_new (lit "align")) by absent F.
  rewrite (put_new (lit "char")) by absent F. rewrite (put_new (lit "charoff")) by absent F. rewrite (put_new (lit "valign")) by absent F.
  rewrite (put_new (lit "style")) by absent F. rewrite <- !app_assoc. reflexivity.
Qed.
Lemma further_plain : forall names d, further names d -> plain_attribs d.
Proof. intros names d [_ F] k v H. apply F in H. tauto. Qed.
Lemma plain_app : forall a b, plain_attribs a -> plain_attribs b -> plain_attribs (a ++ b).
Proof. intros a b A B k v H. rewrite in_app_iff in H. destruct H; auto. Qed.
Lemma given_plain : forall n v, plain_name n -> plain_option v -> plain_attribs (given n v).
Proof. intros n [[|c s]|] N P k w H; cbn in H; try tauto. destruct H as [H|[]]. injection H as <- <-. split; assumption. Qed.
Ltac is_name := let c := fresh "c" in let Hc := fresh "Hc" in intros c Hc; cbn in Hc; repeat (destruct Hc as [<-|Hc]; [repeat split; discriminate|]); destruct Hc.
Ltac plains := repeat first [apply plain_app|apply given_plain; [is_name|assumption]].

(** ** Cells *)
Definition plain_cell (c : hcell) : Prop :=
  no_markup (hc_text c) /\ plain_option (hc_bgcolor c) /\ plain_option (hc_width c) /\ plain_option (hc_align c) /\ plain_option (hc_char c) /\
  plain_option (hc_charoff c) /\ plain_option (hc_valign c) /\ plain_option (hc_style c) /\ further cell_names (hc_attribs c).
Lemma cell_reads : forall c, plain_cell c -> reads (fst (cell_str c)) (chars (lit "  ") ++
  element (if hc_header c then lit "TH" else lit "TD") (cell_attributes c) (chars (match hc_text c with [] => [160%N] | s => s end)) ++ chars [10%N]).
Proof.
  intros c [T [P1 [P2 [P3 [P4 [P5 [P6 [P7 F]]]]]]]]. unfold cell_str. cbn [fst]. rewrite (cell_attributes_ok c F).
  assert (PA : plain_attribs (cell_attributes c)) by (unfold cell_attributes; plains; apply (further_plain _ _ F)).
  assert (B : reads (match hc_text c with [] => lit "&nbsp;" | s => s end) (chars (match hc_text c with [] => [160%N] | s => s end))).
  { destruct (hc_text c) as [|x s]; [intros rest; reflexivity|]. apply reads_plain. exact T. }
  assert (L : letters (if hc_header c then lit "TH" else lit "TD")) by (destruct (hc_header c); is_letters).
  pose proof (reads_element _ _ _ _ L PA B) as E. revert E. generalize (if hc_header c then lit "TH" else lit "TD"). intros name E.
  change (lit "  <") with (lit "  " ++ lit "<"). rewrite <- (app_assoc (lit "  ")). apply reads_app; [apply reads_const; no_mark|].
  eapply reads_eq; [|apply reads_app; [exact E|apply reads_const; no_mark]]. rewrite <- !app_assoc. reflexivity.
Qed.

Lemma from_column_ok : forall column x k, column = [] \/ k < length column -> from_column column x k = Ok (own_or_column x column k).
Proof.
  intros column x k H. destruct column as [|a column].
  - destruct x; cbn; [reflexivity|]. destruct k; reflexivity.
  - destruct x as [v|]; [reflexivity|]. destruct H as [H|H]; [discriminate H|]. unfold from_column, own_or_column.
    destruct (nth_error (a :: column) k) as [v|] eqn:E; [|apply nth_error_None in E; lia]. erewrite nth_error_nth by eassumption. reflexivity.
Qed.
Lemma nth_plain : forall (l : list (option str)) k, Forall plain_option l -> plain_option (nth k l None).
Proof. intros l k F. destruct (nth_in_or_default k l None) as [H|H]; [|rewrite H; exact I]. rewrite Forall_forall in F. apply F. exact H. Qed.
Lemma own_plain : forall v l k, plain_option v -> Forall plain_option l -> plain_option (own_or_column v l k).
Proof. intros [v|] l k P F; [exact P|]. apply nth_plain. exact F. Qed.
Definition with_columns (k : hcols) (n : nat) (c : hcell) : hcell :=
  {| hc_text := hc_text c; hc_bgcolor := hc_bgcolor c; hc_header := hc_header c; hc_width := hc_width c; hc_align := own_or_column (hc_align c) (k_align k) n;
     hc_char := own_or_column (hc_char c) (k_char k) n; hc_charoff := own_or_column (hc_charoff c) (k_charoff k) n; hc_valign := own_or_column (hc_valign c) (k_valign k) n;
     hc_style := own_or_column (hc_style c) (k_styles k) n; hc_attribs := hc_attribs c |}.
Lemma apply_ok : forall k m n c, covers m k -> n < m -> apply_columns k n c = Ok (with_columns k n c).
Proof.
  intros k m n c C L. assert (G : forall l, In l [k_align k; k_valign k; k_char k; k_charoff k; k_styles k] -> l = [] \/ n < length l).
  { intros l Hl. destruct (C l Hl) as [->|H]; [left; reflexivity|right; lia]. }
  unfold apply_columns. rewrite !from_column_ok by (apply G; cbn; tauto). reflexivity.
Qed.
Lemma apply_none : forall m n c, apply_columns no_cols m c = Ok (with_columns no_cols n c).
Proof.
  intros m n c. unfold apply_columns, with_columns. cbn [no_cols k_align k_char k_charoff k_valign k_styles]. rewrite !(from_column_ok []) by (left; reflexivity). cbn [bind].
  assert (E : forall x, own_or_column x [] m = own_or_column x [] n) by (intros [x|]; [reflexivity|]; cbn; destruct m, n; reflexivity). rewrite !E. reflexivity.
Qed.
Lemma plain_with : forall k n c, good_cols k -> plain_cell c -> plain_cell (with_columns k n c).
Proof.
  intros k n c [G1 [G2 [G3 [G4 G5]]]] [T [P1 [P2 [P3 [P4 [P5 [P6 [P7 F]]]]]]]]. unfold plain_cell, with_columns.
  cbn [hc_text hc_bgcolor hc_header hc_width hc_align hc_char hc_charoff hc_valign hc_style hc_attribs]. 
  refine (conj T (conj P1 (conj P2 (conj _ (conj _ (conj _ (conj _ (conj _ F)))))))); apply own_plain; assumption.
Qed.
Lemma plain_as_cell : forall header i, good_item i -> plain_cell (as_cell header i).
Proof.
  intros header [s|c] G; [|exact G]. unfold plain_cell. cbn. repeat split; try exact I; try apply G; try constructor; try contradiction.
Qed.

Lemma first_place_app : forall s a b, ~ In s (texts_of a) -> first_place s (a ++ HText s :: b) = length a.
Proof.
  intros s a b. induction a as [|i a IH]; intros N; cbn [app first_place length].
  - cbn [same_text]. rewrite (proj2 (str_eqb_ok s s) eq_refl). reflexivity.
  - destruct i as [s'|c]; cbn [texts_of] in N; cbn [same_text].
    + destruct (str_eqb s s') eqn:E; [apply str_eqb_ok in E; subst s'; exfalso; apply N; left; reflexivity|]. rewrite IH; [reflexivity|]. intros H. apply N. right. exact H.
    + rewrite IH by exact N. reflexivity.
Qed.
Lemma texts_app : forall a b, texts_of (a ++ b) = texts_of a ++ texts_of b.
Proof. induction a as [|[s|c] a IH]; intros b; cbn [app texts_of]; rewrite ?IH; reflexivity. Qed.
Lemma index_ok : forall a i b, distinct_texts (a ++ i :: b) -> index_of (a ++ i :: b) (length a) i = length a.
Proof.
  intros a [s|c] b D; [|reflexivity]. cbn [index_of]. apply first_place_app. unfold distinct_texts in D. rewrite texts_app in D. cbn [texts_of] in D.
  apply NoDup_remove_2 in D. rewrite in_app_iff in D. tauto.
Qed.

Lemma items_read : forall cells header k, good_row k cells -> forall l a, cells = a ++ l ->
  exists s l', items_str cells header k (length a) l = Ok (s, l') /\
    reads s (flat_map (fun '(n, i) => cell_document n k (as_cell header i)) (combine (seq (length a) (length l)) l)).
Proof.
  intros cells header k [FI [GC [CV D]]]. induction l as [|i l IH]; intros a E.
  - exists [], []. split; [reflexivity|]. apply reads_nil.
  - assert (EA : cells = (a ++ [i]) ++ l) by (rewrite <- app_assoc; exact E). destruct (IH (a ++ [i]) EA) as [s [l' [H R]]]. rewrite app_length in H, R. cbn [length] in H, R. rewrite Nat.add_1_r in H, R.
    assert (LT : length a < length cells) by (rewrite E, app_length; cbn [length]; lia).
    assert (GI : good_item i) by (rewrite Forall_forall in FI; apply FI; rewrite E, in_app_iff; right; left; reflexivity).
    assert (IT : exists i', item_str cells header k (length a) i = Ok (fst (cell_str (with_columns k (length a) (as_cell header i))), i')).
    { assert (IX : forall c, apply_columns k (index_of cells (length a) i) c = Ok (with_columns k (length a) c)).
      { intros c. destruct D as [->|D]; [apply apply_none|]. rewrite E, (index_ok a i l) by (rewrite <- E; exact D). apply (apply_ok _ _ _ _ CV LT). }
      unfold item_str. destruct i as [x|c]; rewrite IX; cbn [bind]; eexists; reflexivity. }
    destruct IT as [i' IT]. eexists. exists (i' :: l'). split.
    + cbn [items_str]. rewrite IT. cbn [bind]. rewrite H. cbn [bind]. reflexivity.
    + cbn [length seq combine flat_map]. apply reads_app; [|exact R].
      apply (cell_reads _ (plain_with k (length a) _ GC (plain_as_cell header i GI))).
Qed.

Lemma row_read : forall r cells, hr_cells r = Some cells -> good_row (hr_cols r) cells -> plain_option (hr_bgcolor r) -> further [lit "bgcolor"] (hr_attribs r) ->
  exists s r', row_str r = Ok (s, r') /\ reads s (row_document (hr_cols r) (hr_header r) (hr_attribs r ++ given (lit "bgcolor") (hr_bgcolor r)) cells).
Proof.
  intros r cells E G P F. destruct (items_read cells (hr_header r) (hr_cols r) G cells [] eq_refl) as [s [l' [H R]]]. cbn [length] in H, R.
  unfold row_str. rewrite E. cbn [bind]. rewrite H. cbn [bind]. eexists. eexists. split; [reflexivity|].
  destruct F as [F0 F]. rewrite (put_new (lit "bgcolor")) by absent F. unfold row_document.
  assert (PA : plain_attribs (hr_attribs r ++ given (lit "bgcolor") (hr_bgcolor r))) by (plains; apply (further_plain _ _ (conj F0 F))).
  revert PA. generalize (hr_attribs r ++ given (lit "bgcolor") (hr_bgcolor r)). intros d PA.
  replace (lit " <TR" ++ attribs_text d ++ lit ">" ++ lf ++ s ++ lit " </TR>" ++ lf)
    with (lit " " ++ (lit "<" ++ lit "TR" ++ attribs_text d ++ lit ">" ++ (lf ++ s ++ lit " ") ++ lit "</" ++ lit "TR" ++ lit ">") ++ lf).
  - apply reads_app; [apply reads_const; no_mark|]. apply reads_app; [|apply reads_const; no_mark].
    apply reads_element; [is_letters|exact PA|]. apply reads_app; [apply reads_const; no_mark|]. apply reads_app; [exact R|apply reads_const; no_mark].
  - rewrite <- !app_assoc. reflexivity.
Qed.
Lemma line_read : forall header k l, good_line k l -> exists s l', line_str header k l = Ok (s, l') /\ reads s (line_document k header l).
Proof.
  intros header k [cells|r] G.
  - assert (EK : inherit_cols no_cols k = k) by (destruct k; reflexivity).
    destruct (row_read (with_cols (new_row cells header) k) cells eq_refl) as [s [r' [H R]]]; [cbn [with_cols hr_cols new_row]; rewrite EK; exact G|exact I|split; [constructor|intros ? ? []]|].
    unfold line_str. rewrite H. cbn [bind]. eexists. eexists. split; [reflexivity|]. cbn [with_cols hr_cols new_row] in R. rewrite EK in R. exact R.
  - destruct G as [cells [E [G [P F]]]]. destruct (row_read (with_cols r k) cells E G P F) as [s [r' [H R]]].
    unfold line_str. rewrite H. cbn [bind]. eexists. eexists. split; [reflexivity|]. unfold line_document. rewrite E. exact R.
Qed.
Lemma lines_read : forall k l, Forall (good_line k) l -> exists s l', lines_str k l = Ok (s, l') /\ reads s (flat_map (line_document k false) l).
Proof.
  intros k l F. induction F as [|x l G _ [s [l' [H R]]]]; [exists [], []; split; [reflexivity|apply reads_nil]|].
  destruct (line_read false k x G) as [s0 [x' [H0 R0]]]. cbn [lines_str]. rewrite H0. cbn [bind]. rewrite H. cbn [bind]. eexists. eexists. split; [reflexivity|].
  cbn [flat_map]. apply reads_app; assumption.
Qed.
Lemma header_read : forall h, (forall l, h = Some l -> good_line no_cols l) -> exists s h', header_str h = Ok (s, h') /\
  reads s (match h with None | Some (HList []) => [] | Some l => line_document no_cols true l end).
Proof.
  intros h G. assert (Z : exists s h', Ok (@nil N, h) = Ok (s, h') /\ reads s []) by (exists [], h; split; [reflexivity|apply reads_nil]).
  destruct h as [l|]; [|exact Z]. destruct (line_read true no_cols l (G l eq_refl)) as [s [l' [H R]]].
  destruct l as [[|i cells]|r]; [exact Z| |]; cbn [header_str]; rewrite H; cbn [bind]; eexists; eexists; (split; [reflexivity|exact R]).
Qed.
Lemma table_attributes_ok : forall b st w sp p d, further table_names d -> table_attribs b st w sp p d =
  d ++ given (lit "border") b ++ given (lit "style") st ++ given (lit "width") w ++ given (lit "cellspacing") sp ++ given (lit "cellpadding") p.
Proof.
  intros b st w sp p d [_ F]. unfold table_attribs.
  rewrite (put_new (lit "border")) by absent F. rewrite (put_new (lit "style")) by absent F. rewrite (put_new (lit "width")) by absent F.
  rewrite (put_new (lit "cellspacing")) by absent F. rewrite (put_new (lit "cellpadding")) by absent F. rewrite <- !app_assoc. reflexivity.
Qed.
Lemma col_read : forall w, plain_value w -> reads (lit "  <COL width=" ++ dq ++ w ++ dq ++ lit ">" ++ lf) (col_document w).
Proof.
  intros w P. assert (PA : plain_attribs [(lit "width", w)]) by (intros k v [H|[]]; injection H as <- <-; split; [is_name|exact P]).
  replace (lit "  <COL width=" ++ dq ++ w ++ dq ++ lit ">" ++ lf) with (lit "  " ++ (lit "<" ++ lit "COL" ++ attribs_text [(lit "width", w)] ++ lit ">") ++ lf).
  - unfold col_document. apply reads_app; [apply reads_const; no_mark|]. apply reads_app; [apply reads_open; [is_letters|exact PA]|apply reads_const; no_mark].
  - unfold attribs_text. cbn [map concat]. rewrite app_nil_r. rewrite <- !app_assoc. reflexivity.
Qed.
Theorem table_reads : forall t, good_html t -> exists s t', table_str t = Ok (s, t') /\ xml_events s = table_document t.
Proof.
  intros t [GR [GH [GW [P1 [P2 [P3 [P4 [P5 F]]]]]]]]. destruct (header_read (ht_header t) GH) as [h [h' [HH RH]]]. destruct (lines_read (ht_cols t) (ht_rows t) GR) as [s [l' [HR RR]]].
  unfold table_str. rewrite HH. cbn [bind]. rewrite HR. cbn [bind]. eexists. eexists. split; [reflexivity|].
  fold (table_attribs (ht_border t) (ht_style t) (ht_width t) (ht_cellspacing t) (ht_cellpadding t) (ht_attribs t)). rewrite (table_attributes_ok _ _ _ _ _ _ F).
  assert (PA : plain_attribs (ht_attribs t ++ given (lit "border") (ht_border t) ++ given (lit "style") (ht_style t) ++ given (lit "width") (ht_width t) ++
     given (lit "cellspacing") (ht_cellspacing t) ++ given (lit "cellpadding") (ht_cellpadding t))) by (plains; apply (further_plain _ _ F)).
  unfold table_document. revert PA. 
  generalize (ht_attribs t ++ given (lit "border") (ht_border t) ++ given (lit "style") (ht_style t) ++ given (lit "width") (ht_width t) ++
     given (lit "cellspacing") (ht_cellspacing t) ++ given (lit "cellpadding") (ht_cellpadding t)). intros d PA.
  set (widths := concat (map (fun w => lit "  <COL width=" ++ dq ++ w ++ dq ++ lit ">" ++ lf) (ht_colwidth t))).
  assert (RW : reads widths (flat_map col_document (ht_colwidth t))).
  { apply reads_concat. intros w Hw. apply col_read. rewrite Forall_forall in GW. apply GW. exact Hw. }
  assert (R : reads (lit "<TABLE" ++ attribs_text d ++ lit ">" ++ lf ++ widths ++ h ++ s ++ lit "</TABLE>")
    (element (lit "TABLE") d (chars [10%N] ++ flat_map col_document (ht_colwidth t) ++
      match ht_header t with None | Some (HList []) => [] | Some l => line_document no_cols true l end ++ flat_map (line_document (ht_cols t) false) (ht_rows t)))).
  { replace (lit "<TABLE" ++ attribs_text d ++ lit ">" ++ lf ++ widths ++ h ++ s ++ lit "</TABLE>")
      with (lit "<" ++ lit "TABLE" ++ attribs_text d ++ lit ">" ++ (lf ++ widths ++ h ++ s) ++ lit "</" ++ lit "TABLE" ++ lit ">") by (rewrite <- !app_assoc; reflexivity).
    apply reads_element; [is_letters|exact PA|]. apply reads_app; [apply reads_const; no_mark|]. apply reads_app; [exact RW|]. apply reads_app; [exact RH|exact RR]. }
  unfold xml_events. specialize (R []). rewrite !app_nil_r in R. exact R.
Qed.

(** ** Lists *)
Theorem list_reads : forall l, good_list l -> xml_events (fst (list_str l)) = list_document l.
Proof.
  intros l [GL [GS F]]. unfold list_str, list_document. cbn [fst]. destruct F as [F0 F]. rewrite (put_new (lit "start")) by absent F.
  assert (PA : plain_attribs (hl_attribs l ++ given (lit "start") (hl_start l))) by (plains; apply (further_plain _ _ (conj F0 F))).
  revert PA. generalize (hl_attribs l ++ given (lit "start") (hl_start l)). intros d PA.
  assert (L : letters (if hl_ordered l then lit "OL" else lit "UL")) by (destruct (hl_ordered l); is_letters).
  revert L. generalize (if hl_ordered l then lit "OL" else lit "UL"). intros name L.
  assert (B : reads (lf ++ concat (map (fun x => lit " <LI>" ++ x ++ lf) (hl_lines l))) (chars [10%N] ++ flat_map entry_document (hl_lines l))).
  { apply reads_app; [apply reads_const; no_mark|]. apply reads_concat. intros x Hx. rewrite Forall_forall in GL. specialize (GL x Hx).
    intros rest. rewrite <- !app_assoc. change (xml_reader InText (lit " <LI>" ++ x ++ lf ++ rest)) with (Char 32 :: Begin (lit "LI") [] :: xml_reader InText (x ++ lf ++ rest)).
    rewrite read_plain_text by exact GL. unfold entry_document. rewrite <- !app_assoc. reflexivity. }
  assert (R : reads (lit "<" ++ name ++ attribs_text d ++ lit ">" ++ lf ++ concat (map (fun x => lit " <LI>" ++ x ++ lf) (hl_lines l)) ++ lit "</" ++ name ++ lit ">" ++ lf)
    (element name d (chars [10%N] ++ flat_map entry_document (hl_lines l)) ++ chars [10%N])).
  { eapply reads_eq; [|apply reads_app; [apply reads_element; [exact L|exact PA|exact B]|apply reads_const; no_mark]]. rewrite <- !app_assoc. reflexivity. }
  unfold xml_events. specialize (R []). rewrite !app_nil_r in R. exact R.
Qed.
Theorem list_again : forall l, list_str (snd (list_str l)) = list_str l.
Proof.
  intros l. assert (E : put (lit "start") (hl_start l) (put (lit "start") (hl_start l) (hl_attribs l)) = put (lit "start") (hl_start l) (hl_attribs l)).
  { apply put_again. intros x s Hv. apply put_here. exact Hv. }
  unfold list_str at 1. change (hl_attribs (snd (list_str l))) with (put (lit "start") (hl_start l) (hl_attribs l)). change (hl_start (snd (list_str l))) with (hl_start l). rewrite E. reflexivity.
Qed.

(** ** Columns that end too early *)
Definition align_only (a : list (option str)) : hcols := {| k_align := a; k_valign := []; k_char := []; k_charoff := []; k_styles := [] |}.
Lemma short_items : forall cells header a, distinct_texts cells -> (forall i c, nth_error cells i = Some (HCell c) -> hc_align c = None) -> a <> [] -> length a < length cells ->
  forall l b, cells = b ++ l -> length b <= length a -> items_str cells header (align_only a) (length b) l = Raise IndexError.
Proof.
  intros cells header a D NA NE LT. induction l as [|i l IH]; intros b E LB.
  - exfalso. rewrite app_nil_r in E. subst b. lia.
  - assert (EA : cells = (b ++ [i]) ++ l) by (rewrite <- app_assoc; exact E).
    assert (IX : index_of cells (length b) i = length b) by (rewrite E; apply index_ok; rewrite <- E; exact D).
    assert (NI : match i with HText _ => True | HCell c => hc_align c = None end).
    { destruct i as [x|c]; [exact I|]. apply (NA (length b)). rewrite E, nth_error_app2, Nat.sub_diag by lia. reflexivity. }
    assert (FC : forall k, from_column a None k = match nth_error a k with Some v => Ok v | None => Raise IndexError end) by (intros k; destruct a; [congruence|reflexivity]).
    cbn [items_str]. unfold item_str. rewrite IX.
    destruct (Nat.eq_dec (length b) (length a)) as [EQ|NEQ].
    + assert (N : nth_error a (length b) = None) by (apply nth_error_None; lia).
      destruct i as [x|c]; unfold apply_columns; cbn [align_only k_align new_cell hc_align]; [|rewrite NI]; rewrite FC, N; reflexivity.
    + destruct (nth_error a (length b)) as [v|] eqn:N; [|apply nth_error_None in N; lia].
      specialize (IH (b ++ [i]) EA). rewrite app_length in IH. cbn [length] in IH. rewrite Nat.add_1_r in IH.
      destruct i as [x|c]; unfold apply_columns; cbn [align_only k_align k_char k_charoff k_valign k_styles new_cell hc_align]; [|rewrite NI]; rewrite FC, N; cbn [bind from_column];
        rewrite IH by lia; reflexivity.
Qed.

(** ** The table of html2 *)
Definition coloured_cell (x : str * str) : hitem :=
  HCell {| hc_text := snd x; hc_bgcolor := Some (fst x); hc_header := false; hc_width := None; hc_align := None; hc_char := None; hc_charoff := None;
           hc_valign := None; hc_style := None; hc_attribs := [] |}.
Lemma html2_cell_text : forall c s, c <> [] -> fst (cell_str {| hc_text := s; hc_bgcolor := Some c; hc_header := false; hc_width := None; hc_align := None; hc_char := None; hc_charoff := None;
  hc_valign := None; hc_style := None; hc_attribs := [] |}) = td (c, s).
Proof.
  intros [|x c] s NE; [congruence|]. unfold cell_str, td, html_cell. cbn [fst snd hc_header hc_text]. 
  change (cell_attribs _) with [(lit "bgcolor", x :: c)]. unfold attribs_text. cbn [map concat]. rewrite app_nil_r. rewrite <- !app_assoc. destruct s; reflexivity.
Qed.
Lemma coloured_items : forall l n cells, Forall (fun x => fst x <> []) l -> exists l', items_str cells false no_cols n (map coloured_cell l) = Ok (concat (map td l), l').
Proof.
  intros l. induction l as [|[c s] l IH]; intros n cells F; [eexists; reflexivity|]. inversion F; subst. destruct (IH (S n) cells H2) as [l' E].
  cbn [map items_str]. unfold item_str, coloured_cell at 1. cbn [fst snd index_of]. unfold apply_columns. cbn [from_column no_cols k_align k_char k_charoff k_valign k_styles bind hc_align hc_char hc_charoff hc_valign hc_style hc_text hc_bgcolor hc_header hc_width hc_attribs].
  rewrite E. cbn [bind]. eexists. rewrite html2_cell_text by assumption. reflexivity.
Qed.
Lemma heading_items : forall l n cells, exists l', items_str cells true no_cols n (map HText l) = Ok (concat (map (html_cell true None) l), l').
Proof.
  intros l. induction l as [|s l IH]; intros n cells; [eexists; reflexivity|]. destruct (IH (S n) cells) as [l' E].
  cbn [map items_str]. unfold item_str. unfold apply_columns. cbn [from_column no_cols k_align k_char k_charoff k_valign k_styles bind new_cell hc_align hc_char hc_charoff hc_valign hc_style].
  rewrite E. cbn [bind]. exists (HText s :: l'). destruct s; reflexivity.
Qed.
Theorem html2_is_table : forall sigla rows, Forall (Forall (fun x => fst x <> [])) rows ->
  exists t', table_str (new_table (map (fun r => HList (map coloured_cell r)) rows) (Some (HList (map HText sigla)))) = Ok (html_table sigla (map (map td) rows), t').
Proof.
  intros sigla rows F. unfold table_str, new_table. cbn [ht_rows ht_border ht_style ht_width ht_cellspacing ht_cellpadding ht_attribs ht_header ht_colwidth ht_cols map concat].
  assert (HD : exists h', header_str (Some (HList (map HText sigla))) = Ok (match sigla with [] => [] | _ => html_row (map (html_cell true None) sigla) end, h')).
  { destruct sigla as [|x sigla]; [eexists; reflexivity|]. destruct (heading_items (x :: sigla) 0 (map HText (x :: sigla))) as [l' E].
    unfold header_str. cbn [map]. unfold line_str, row_str. cbn [with_cols new_row hr_cells hr_header hr_cols hr_bgcolor hr_attribs]. cbn [map] in E.
    change (inherit_cols no_cols no_cols) with no_cols. rewrite E. cbn [bind]. eexists. reflexivity. }
  destruct HD as [h' HD]. rewrite HD. cbn [bind].
  assert (RD : exists l', lines_str no_cols (map (fun r => HList (map coloured_cell r)) rows) = Ok (concat (map html_row (map (map td) rows)), l')).
  { clear - F. induction F as [|r rows Fr F [l' IH]]; [eexists; reflexivity|]. destruct (coloured_items r 0 (map coloured_cell r) Fr) as [r' E].
    cbn [map lines_str]. unfold line_str, row_str. cbn [with_cols new_row hr_cells hr_header hr_cols hr_bgcolor hr_attribs]. change (inherit_cols no_cols no_cols) with no_cols.
    rewrite E. cbn [bind]. rewrite IH. cbn [bind]. eexists. reflexivity. }
  destruct RD as [l' RD]. rewrite RD. cbn [bind]. eexists. reflexivity.
Qed.
