(** Data of any JSON type (C98). *)
From Verif Require Import Py Lib TokenModel TokenSpec TokenProof OutputProof DictProof DictErrSpec SuffixModel IndexModel CutSpec CutProof Props_cut AnyDataModel AnyDataSpec.
From Verif Require Import Props_dicterr.
Open Scope list_scope.

Lemma str1_eqb : forall c s, str_eqb [c] s = true <-> s = [c].
Proof. intros. rewrite str_eqb_eq. split; congruence. Qed.

Lemma char_in_obj : forall c d, char_in c (JObj d) = Ok (dmem str_eqb [c] d).
Proof. reflexivity. Qed.
Lemma dmem_some : forall (k : str) (d : jdict) v, dget str_eqb k d = Some v -> dmem str_eqb k d = true.
Proof. intros k d v H. unfold dmem. rewrite H. reflexivity. Qed.
Lemma dmem_none : forall (k : str) (d : jdict), dget str_eqb k d = None -> dmem str_eqb k d = false.
Proof. intros k d H. unfold dmem. rewrite H. reflexivity. Qed.

(** Token of a dictionary. *)
Lemma token_any_dict : forall d, token_any (JObj d) =
  match dget str_eqb (lit "n") d with
  | Some v => Ok (v, Some d)
  | None => match dget str_eqb (lit "t") d with Some v => Ok (v, Some d) | None => Raise TokenError end
  end.
Proof.
  intros d. unfold token_any. rewrite !char_in_obj. cbn [bind]. change (lit "n") with [110%N]. change (lit "t") with [116%N]. unfold get_item, dgetE.
  destruct (dget str_eqb [110%N] d) as [v|] eqn:E; [rewrite (dmem_some _ _ _ E); reflexivity|]. rewrite (dmem_none _ _ E).
  destruct (dget str_eqb [116%N] d) as [v|] eqn:E2; [rewrite (dmem_some _ _ _ E2); reflexivity|]. rewrite (dmem_none _ _ E2). reflexivity.
Qed.

Lemma token_any_text : forall s, names_key (JStr s) -> token_any (JStr s) = Raise TypeError.
Proof.
  intros s H. inversion H as [? C|]; subst. unfold token_any. cbn [char_in bind]. destruct (existsb (N.eqb 110) s) eqn:E; [reflexivity|].
  assert (T : existsb (N.eqb 116) s = true); [|rewrite T; reflexivity]. apply existsb_exists. destruct C as [C|C]; [|exists 116%N; split; [exact C|reflexivity]].
  exfalso. assert (Q : existsb (N.eqb 110) s = true) by (apply existsb_exists; exists 110%N; split; [exact C|reflexivity]). congruence.
Qed.
Lemma is_str_iff : forall k v, is_str k v = true <-> v = JStr k.
Proof. intros k v. destruct v; cbn [is_str]; split; try discriminate; intros H; [apply str_eqb_eq in H; subst; reflexivity|injection H as ->; apply str_eqb_eq; reflexivity]. Qed.
Lemma has_str : forall k l, existsb (is_str k) l = true <-> In (JStr k) l.
Proof. intros k l. rewrite existsb_exists. split; [intros [x [H E]]; apply is_str_iff in E; subst; exact H|intros H; exists (JStr k); split; [exact H|apply is_str_iff; reflexivity]]. Qed.
Lemma token_any_list : forall l, names_key (JArr l) -> token_any (JArr l) = Raise TypeError.
Proof.
  intros l H. inversion H as [|? C]; subst. unfold token_any. cbn [char_in bind]. destruct (existsb (is_str [110%N]) l) eqn:E; [reflexivity|].
  assert (T : existsb (is_str [116%N]) l = true); [|rewrite T; reflexivity]. apply has_str. destruct C as [C|C]; [|exact C].
  exfalso. apply has_str in C. change (lit "n") with [110%N] in C. congruence.
Qed.
Lemma token_error_ok : forall v e, token_error v e -> token_any v = Raise e.
Proof.
  intros v e H. destruct H as [v H|v H N| | |d N T].
  - destruct H as [s H|l H]; [apply token_any_text|apply token_any_list]; constructor; exact H.
  - destruct H as [[s ->]|[l ->]]; unfold token_any; cbn [char_in bind].
    + destruct (existsb (N.eqb 110) s) eqn:E; [exfalso; apply N; constructor; left; apply existsb_exists in E as [x [Hx E]]; apply N.eqb_eq in E; subst; exact Hx|].
      destruct (existsb (N.eqb 116) s) eqn:E2; [exfalso; apply N; constructor; right; apply existsb_exists in E2 as [x [Hx E2]]; apply N.eqb_eq in E2; subst; exact Hx|]. reflexivity.
    + destruct (existsb (is_str [110%N]) l) eqn:E; [exfalso; apply N; constructor; left; apply has_str in E; exact E|].
      destruct (existsb (is_str [116%N]) l) eqn:E2; [exfalso; apply N; constructor; right; apply has_str in E2; exact E2|]. reflexivity.
  - reflexivity.
  - reflexivity.
  - rewrite token_any_dict. apply key_absent in N, T. rewrite N, T. reflexivity.
Qed.

Lemma token_any_ok : forall v x, (forall d, v = JObj d -> keys_once d) -> (token_any v = Ok x <-> reading_any v (fst x) /\ snd x = match v with JObj d => Some d | _ => None end).
Proof.
  intros v [r dt] K. cbn [fst snd]. destruct v as [|b|z|s|l|d].
  - cbn. split; [intros E; injection E as <- <-; split; [constructor|reflexivity]|intros [H ->]; inversion H; subst; reflexivity].
  - cbn. split; [discriminate|intros [H _]; inversion H].
  - cbn. split; [discriminate|intros [H _]; inversion H].
  - split; [|intros [H _]; inversion H]. unfold token_any. cbn [char_in bind get_item]. destruct (existsb _ s); [discriminate|]. destruct (existsb _ s); discriminate.
  - split; [|intros [H _]; inversion H]. unfold token_any. cbn [char_in bind get_item]. destruct (existsb _ l); [discriminate|]. destruct (existsb _ l); discriminate.
  - specialize (K d eq_refl). rewrite token_any_dict. destruct (dget str_eqb (lit "n") d) as [v|] eqn:E.
    + pose proof (proj1 (key_iff _ _ _ K) E) as I. split.
      * intros Q. injection Q as <- <-. split; [apply reading_n; exact I|reflexivity].
      * intros [H ->]. inversion H as [|? ? I2|? ? N _]; subst; [rewrite (key_clash _ _ _ _ K I2 I); reflexivity|]. apply key_absent in N. congruence.
    + pose proof (proj1 (key_absent _ _) E) as A. destruct (dget str_eqb (lit "t") d) as [v|] eqn:E2.
      * pose proof (proj1 (key_iff _ _ _ K) E2) as I. split.
        -- intros Q. injection Q as <- <-. split; [apply reading_t; assumption|reflexivity].
        -- intros [H ->]. inversion H as [|? ? I2|? ? N I2]; subst; [exfalso; apply A; apply (in_map fst) in I2; exact I2|]. rewrite (key_clash _ _ _ _ K I2 I). reflexivity.
      * split; [discriminate|]. intros [H _]. exfalso. apply key_absent in E2. inversion H as [|? ? I2|? ? N I2]; subst; [apply A|apply E2]; apply (in_map fst) in I2; exact I2.
Qed.

Lemma given_any : forall d s, given_reading d s <-> reading_any (JObj d) (JStr s).
Proof. intros d s. split; intros H; inversion H; subst; [apply reading_n|apply reading_t|apply given_n|apply given_t]; assumption. Qed.

Lemma token_both : forall v t, (forall d, v = JObj d -> keys_once d) -> ((x <- token_any v ;; text_any x) = Ok t <-> made_token v t).
Proof.
  intros v t K. split.
  - intros H. apply bind_ok in H as [x [E1 E2]]. apply token_any_ok in E1 as [R D]; [|exact K]. destruct x as [r dt]. cbn [fst snd] in *. unfold text_any in E2. cbn [fst snd] in E2. destruct r; try discriminate. injection E2 as <-. subst dt.
    inversion R; subst; [constructor|apply made_dict, given_n; assumption|apply made_dict, given_t; assumption].
  - intros H. destruct H as [|d s H]; [reflexivity|]. apply given_any in H.
    assert (E : token_any (JObj d) = Ok (JStr s, Some d)) by (apply token_any_ok; [exact K|split; [exact H|reflexivity]]). rewrite E. reflexivity.
Qed.

(** Two passes over the tokens. *)
Lemma mapM_two : forall {A B C} (f : A -> res B) (g : B -> res C) l r, (xs <- mapM f l ;; mapM g xs) = Ok r <-> Forall2 (fun a c => (x <- f a ;; g x) = Ok c) l r.
Proof.
  intros A B C f g l. induction l as [|a l IH]; intros r.
  - cbn. split; [intros E; injection E as <-; constructor|intros H; inversion H; reflexivity].
  - cbn [mapM]. split.
    + intros H. apply bind_ok in H as [xs [E1 E2]]. apply bind_ok in E1 as [x [Ex E1]]. apply bind_ok in E1 as [ys [Ey E1]]. injection E1 as <-. cbn [mapM] in E2. apply bind_ok in E2 as [c [Ec E2]]. apply bind_ok in E2 as [cs [Ecs E2]]. injection E2 as <-.
      constructor; [rewrite Ex; exact Ec|]. apply IH. rewrite Ey. exact Ecs.
    + intros H. inversion H as [|? c ? cs H1 H2]; subst. apply bind_ok in H1 as [x [Ex Ec]]. apply IH in H2. apply bind_ok in H2 as [ys [Ey Ecs]]. rewrite Ex. cbn [bind]. rewrite Ey. cbn [bind mapM]. rewrite Ec. cbn [bind]. rewrite Ecs. reflexivity.
Qed.

Lemma through_items : forall v l, gone_through v l <-> items v = Ok l.
Proof. intros v l. split; [intros H; destruct H; reflexivity|]. destruct v; cbn; intros H; try discriminate; injection H as <-; constructor. Qed.

Lemma text_items : forall s, token_any (JStr s) <> Ok (JStr [], None) /\ (forall x, token_any (JStr s) <> Ok x).
Proof.
  intros s. assert (K : forall x, token_any (JStr s) <> Ok x).
  { intros x E. apply token_any_ok in E as [R _]; [inversion R|]. intros d Q. discriminate Q. }
  split; [apply K|exact K].
Qed.
Lemma list_items : forall tv l ts, items tv = Ok l -> Forall2 (fun v t => (x <- token_any v ;; text_any x) = Ok t) l ts -> token_list tv l.
Proof.
  assert (K : forall l ts, Forall2 (fun v t => (x <- token_any v ;; text_any x) = Ok t) l ts -> (forall v, In v l -> exists s, v = JStr s) -> l = []).
  { intros l ts F H. destruct F as [|v t l ts E F]; [reflexivity|]. exfalso. destruct (H v (or_introl eq_refl)) as [s ->]. apply bind_ok in E as [x [E _]]. exact (proj2 (text_items s) x E). }
  intros tv l ts E F. destruct tv as [| | |s|l'|d]; cbn in E; try discriminate; injection E as <-.
  - assert (Q : map (fun c => JStr [c]) s = []) by (eapply K; [exact F|intros v Hv; apply in_map_iff in Hv as [c [<- _]]; eexists; reflexivity]). apply map_eq_nil in Q. subst s. constructor.
  - constructor.
  - assert (Q : map (fun m : str * jval => JStr (fst m)) d = []) by (eapply K; [exact F|intros v Hv; apply in_map_iff in Hv as [c [<- _]]; eexists; reflexivity]). apply map_eq_nil in Q. subst d. constructor.
Qed.
Lemma token_list_items : forall tv l, token_list tv l -> items tv = Ok l.
Proof. intros tv l H. destruct H; reflexivity. Qed.

Lemma key_in : forall (k : str) (d : jdict), In k (map fst d) -> exists v, In (k, v) d.
Proof. intros k d H. apply in_map_iff in H as [[k' v] [<- H]]. exists v. exact H. Qed.

Lemma Forall2_iff_in : forall {A B} (P Q : A -> B -> Prop) l r, (forall x y, In x l -> (P x y <-> Q x y)) -> (Forall2 P l r <-> Forall2 Q l r).
Proof. intros. apply Forall2_eq. assumption. Qed.

Section Any.
  Variable cc : cclass.

  Lemma witness_any_ok : forall v w, keys_once_any v -> (witness_any cc v = Ok w <-> made_witness cc v w).
  Proof.
    intros v w K. split.
    - intros H. unfold witness_any in H. apply bind_ok in H as [i [Ei H]]. destruct v as [| | | | |d]; cbn [get_item] in Ei; try discriminate.
      destruct (K d eq_refl) as [K1 K2]. unfold dgetE in Ei. destruct (dget str_eqb (lit "id") d) as [i'|] eqn:Di; [|discriminate]. injection Ei as ->. apply (key_iff _ _ _ K1) in Di.
      destruct (dget str_eqb (lit "content") d) as [cv|] eqn:Dc.
      + apply (key_iff _ _ _ K1) in Dc. destruct cv; try discriminate. injection H as <-. rewrite <- map_map with (f := plain_token cc) (g := embed_tok). eapply made_content; [exact Di|exact Dc|apply tokens_of_iff; reflexivity].
      + apply key_absent in Dc. destruct (dget str_eqb (lit "tokens") d) as [tv|] eqn:Dt.
        * apply (key_iff _ _ _ K1) in Dt. apply bind_ok in H as [l [El H]]. apply bind_ok in H as [xs [Ex H]]. apply bind_ok in H as [ts [Et H]]. injection H as <-.
          assert (F : Forall2 (fun v t => (x <- token_any v ;; text_any x) = Ok t) l ts) by (apply mapM_two; rewrite Ex; exact Et).
          pose proof (list_items tv l ts El F) as L. eapply made_tokens; [exact Di|exact Dc|exact Dt|exact L|].
          apply Forall2_eq with (2 := F). intros x y Hx. symmetry. apply token_both. intros d' ->. destruct L as [l'| |]; [|destruct Hx|destruct Hx]. exact (K2 l' d' Dt Hx).
        * apply key_absent in Dt. injection H as <-. apply made_nothing; assumption.
    - intros H. unfold witness_any. destruct H as [d i s ts Hi Hc Ht|d i tv l ts Hi Hc Ht L F|d i Hi Hc Ht]; destruct (K d eq_refl) as [K1 K2]; unfold get_item, dgetE; apply (key_iff _ _ _ K1) in Hi; rewrite Hi; cbn [bind].
      + apply (key_iff _ _ _ K1) in Hc. rewrite Hc. apply tokens_of_iff in Ht. subst ts. rewrite map_map. reflexivity.
      + apply key_absent in Hc. rewrite Hc. pose proof Ht as Dt. apply (key_iff _ _ _ K1) in Ht. rewrite Ht, (token_list_items _ _ L). cbn [bind].
        assert (F2 : Forall2 (fun v t => (x <- token_any v ;; text_any x) = Ok t) l ts).
        { apply Forall2_eq with (2 := F). intros x y Hx. apply token_both. intros d' ->. destruct L as [l'| |]; [|destruct Hx|destruct Hx]. exact (K2 l' d' Dt Hx). }
        apply mapM_two in F2. apply bind_ok in F2 as [xs [Ex Et]]. rewrite Ex. cbn [bind]. rewrite Et. reflexivity.
      + apply key_absent in Hc, Ht. rewrite Hc, Ht. reflexivity.
  Qed.

  Lemma mapM_first : forall {A B} (f : A -> res B) a x b e, (forall y, In y a -> exists z, f y = Ok z) -> f x = Raise e -> mapM f (a ++ x :: b) = Raise e.
  Proof.
    intros A B f a x b e H E. induction a as [|y a IH]; cbn [app mapM]; [rewrite E; reflexivity|]. destruct (H y (or_introl eq_refl)) as [z Z]. rewrite Z. cbn [bind]. rewrite IH; [reflexivity|]. intros y' Hy. apply H. right. exact Hy.
  Qed.
  Lemma mapM_all : forall {A B} (f : A -> res B) l, (forall y, In y l -> exists z, f y = Ok z) -> exists zs, mapM f l = Ok zs /\ forall y z, In y l -> f y = Ok z -> In z zs.
  Proof.
    intros A B f l H. induction l as [|y l IH]; [exists []; split; [reflexivity|intros y z []]|]. destruct (H y (or_introl eq_refl)) as [z Z]. destruct (IH (fun y' Hy => H y' (or_intror Hy))) as [zs [E P]].
    exists (z :: zs). cbn [mapM]. rewrite Z. cbn [bind]. rewrite E. split; [reflexivity|]. intros y' z' [<-|Hy] Ez; [left; congruence|right; eapply P; eassumption].
  Qed.
  Lemma text_any_fails : forall xs x, In x xs -> ~ is_text (fst x) -> mapM text_any xs = Raise TypeError.
  Proof.
    induction xs as [|y xs IH]; intros x H N; [destruct H|]. cbn [mapM]. destruct H as [->|H].
    - unfold text_any at 1. destruct (fst x) eqn:E; try reflexivity. exfalso. apply N. eexists. reflexivity.
    - rewrite (IH x H N). unfold text_any. destruct (fst y); reflexivity.
  Qed.

  Lemma through_keys : forall v l x d, keys_once d -> (forall l' d', In (lit "tokens", JArr l') d -> In (JObj d') l' -> keys_once d') -> In (lit "tokens", v) d ->
    gone_through v l -> In x l -> forall d', x = JObj d' -> keys_once d'.
  Proof.
    intros v l x d K1 K2 Dt G Hx d' ->. destruct G as [l|s|d0]; [exact (K2 l d' Dt Hx)| |]; apply in_map_iff in Hx as [c [Q _]]; discriminate Q.
  Qed.

  Lemma witness_any_error : forall v e, keys_once_any v -> entry_error v e -> witness_any cc v = Raise e.
  Proof.
    intros v e K H. destruct H as [v N|d N|d v I Hc N|d v I Hc Ht N|d v a x b e I Hc Ht G R E|d v l y r I Hc Ht G R Hy Ry N].
    - unfold witness_any. destruct v; try reflexivity. exfalso. exact (N d eq_refl).
    - unfold witness_any. cbn [get_item]. unfold dgetE. apply key_absent in N. rewrite N. reflexivity.
    - destruct (K d eq_refl) as [K1 K2]. apply key_in in I as [i I]. apply (key_iff _ _ _ K1) in I, Hc. unfold witness_any. cbn [get_item]. unfold dgetE. rewrite I. cbn [bind]. rewrite Hc. destruct v; try reflexivity. exfalso. apply N. eexists. reflexivity.
    - destruct (K d eq_refl) as [K1 K2]. apply key_in in I as [i I]. apply (key_iff _ _ _ K1) in I, Ht. apply key_absent in Hc. unfold witness_any. cbn [get_item]. unfold dgetE. rewrite I. cbn [bind]. rewrite Hc, Ht.
      destruct (items v) as [l|e] eqn:El; [exfalso; exact (N l (proj2 (through_items v l) El))|]. destruct v; cbn in El; try discriminate; injection El as <-; reflexivity.
    - destruct (K d eq_refl) as [K1 K2]. apply key_in in I as [i I]. pose proof Ht as Dt. apply (key_iff _ _ _ K1) in I, Ht. apply key_absent in Hc. unfold witness_any. cbn [get_item]. unfold dgetE. rewrite I. cbn [bind]. rewrite Hc, Ht.
      pose proof G as G'. apply through_items in G. rewrite G. cbn [bind]. rewrite (mapM_first token_any a x b e); [reflexivity| |apply token_error_ok; exact E].
      intros y Hy. destruct (R y Hy) as [r Hr]. exists (r, match y with JObj d => Some d | _ => None end). apply token_any_ok; [|split; [exact Hr|reflexivity]].
      apply (through_keys v _ y d K1 K2 Dt G'). apply in_or_app. left. exact Hy.
    - destruct (K d eq_refl) as [K1 K2]. apply key_in in I as [i I]. pose proof Ht as Dt. apply (key_iff _ _ _ K1) in I, Ht. apply key_absent in Hc. unfold witness_any. cbn [get_item]. unfold dgetE. rewrite I. cbn [bind]. rewrite Hc, Ht.
      pose proof G as G'. apply through_items in G. rewrite G. cbn [bind].
      assert (TK : forall y r, In y l -> reading_any y r -> token_any y = Ok (r, match y with JObj d => Some d | _ => None end)).
      { intros y' r' Hy' Hr. apply token_any_ok; [|split; [exact Hr|reflexivity]]. apply (through_keys v _ y' d K1 K2 Dt G'). exact Hy'. }
      destruct (mapM_all token_any l) as [zs [E P]]; [intros y' Hy'; destruct (R y' Hy') as [r' Hr]; eexists; apply (TK y' r' Hy' Hr)|]. rewrite E. cbn [bind].
      rewrite (text_any_fails zs _ (P y _ Hy (TK y r Hy Ry)) N). reflexivity.
  Qed.

  (** The two lists say everything. *)
  Lemma token_cases : forall v, (forall d, v = JObj d -> keys_once d) -> (exists r, reading_any v r) \/ (exists e, token_error v e).
  Proof.
    intros v K. destruct v as [|b|z|s|l|d].
    - left. exists (JStr []). constructor.
    - right. eexists. apply err_bool.
    - right. eexists. apply err_number.
    - right. destruct (existsb (N.eqb 110) s) eqn:E.
      + exists TypeError. constructor. constructor. left. apply existsb_exists in E as [x [Hx E]]; apply N.eqb_eq in E; subst; exact Hx.
      + destruct (existsb (N.eqb 116) s) eqn:E2.
        * exists TypeError. constructor. constructor. right. apply existsb_exists in E2 as [x [Hx E2]]; apply N.eqb_eq in E2; subst; exact Hx.
        * exists TokenError. constructor; [left; eexists; reflexivity|]. intros N. inversion N as [? [C|C]|]; subst; [assert (Q : existsb (N.eqb 110) s = true) by (apply existsb_exists; eexists; split; [exact C|reflexivity])|assert (Q : existsb (N.eqb 116) s = true) by (apply existsb_exists; eexists; split; [exact C|reflexivity])]; congruence.
    - right. destruct (existsb (is_str [110%N]) l) eqn:E; [exists TypeError; constructor; constructor; left; apply has_str in E; exact E|].
      destruct (existsb (is_str [116%N]) l) eqn:E2; [exists TypeError; constructor; constructor; right; apply has_str in E2; exact E2|].
      exists TokenError. constructor; [right; eexists; reflexivity|]. intros N. inversion N as [|? [C|C]]; subst; apply has_str in C; [change (lit "n") with [110%N] in C|change (lit "t") with [116%N] in C]; congruence.
    - specialize (K d eq_refl). destruct (dget str_eqb (lit "n") d) as [v|] eqn:E; [left; exists v; apply reading_n; apply (key_iff _ _ _ K); exact E|]. apply key_absent in E.
      destruct (dget str_eqb (lit "t") d) as [v|] eqn:E2; [left; exists v; apply reading_t; [exact E|apply (key_iff _ _ _ K); exact E2]|]. apply key_absent in E2. right. exists TokenError. constructor; assumption.
  Qed.
  Lemma first_bad : forall {A} (P Q : A -> Prop) l, (forall x, In x l -> P x \/ Q x) -> (forall x, In x l -> P x) \/ exists a x b, l = a ++ x :: b /\ (forall y, In y a -> P y) /\ Q x.
  Proof.
    intros A P Q l. induction l as [|x l IH]; intros H; [left; intros ? []|]. destruct (H x (or_introl eq_refl)) as [Px|Qx].
    - destruct (IH (fun y Hy => H y (or_intror Hy))) as [G|[a [z [b [-> [G1 G2]]]]]]; [left; intros y [<-|Hy]; [exact Px|apply G; exact Hy]|].
      right. exists (x :: a), z, b. split; [reflexivity|]. split; [intros y [<-|Hy]; [exact Px|apply G1; exact Hy]|exact G2].
    - right. exists [], x, l. split; [reflexivity|]. split; [intros ? []|exact Qx].
  Qed.
  Lemma text_dec : forall v, is_text v \/ ~ is_text v.
  Proof. intros v. destruct v; try (right; intros [s Q]; discriminate Q). left. eexists. reflexivity. Qed.

  Lemma witness_cases : forall v, keys_once_any v -> (exists w, made_witness cc v w) \/ (exists e, entry_error v e).
  Proof.
    intros v K. destruct v as [| | | | |d]; try (right; exists TypeError; apply err_object; intros d Q; discriminate Q). destruct (K d eq_refl) as [K1 K2].
    destruct (dget str_eqb (lit "id") d) as [i|] eqn:Di; [|right; exists KeyError; apply err_id; apply key_absent; exact Di].
    apply (key_iff _ _ _ K1) in Di. assert (HI : In (lit "id") (map fst d)) by (apply (in_map fst) in Di; exact Di).
    destruct (dget str_eqb (lit "content") d) as [cv|] eqn:Dc.
    - apply (key_iff _ _ _ K1) in Dc. destruct (text_dec cv) as [[s ->]|N]; [left; eexists; eapply made_content; [exact Di|exact Dc|apply tokens_of_iff; reflexivity]|right; exists TypeError; eapply err_content; eassumption].
    - apply key_absent in Dc. destruct (dget str_eqb (lit "tokens") d) as [tv|] eqn:Dt; [|apply key_absent in Dt; left; eexists; apply made_nothing; eassumption].
      apply (key_iff _ _ _ K1) in Dt. destruct (items tv) as [l|e] eqn:El.
      2:{ right. exists TypeError. eapply err_no_list; try eassumption. intros l G. apply through_items in G. congruence. }
      pose proof (proj2 (through_items tv l) El) as G.
      destruct (first_bad (fun y => exists r, reading_any y r) (fun y => exists e, token_error y e) l) as [A|[a [x [b [-> [A [e E]]]]]]].
      + intros y Hy. apply token_cases. apply (through_keys tv l y d K1 K2 Dt G Hy).
      + destruct (first_bad (fun y => exists s, reading_any y (JStr s)) (fun y => exists r, reading_any y r /\ ~ is_text r) l) as [B|[a [x [b [-> [B [r [R N]]]]]]]].
        * intros y Hy. destruct (A y Hy) as [r R]. destruct (text_dec r) as [[s ->]|N]; [left; exists s; exact R|right; exists r; split; assumption].
        * left.
          assert (F : exists ts, Forall2 made_token l ts).
          { clear - B. induction l as [|y l IH]; [exists []; constructor|]. destruct (IH (fun z Hz => B z (or_intror Hz))) as [ts F]. destruct (B y (or_introl eq_refl)) as [s R].
            inversion R; subst; [eexists; constructor; [constructor|exact F]|eexists; constructor; [apply made_dict, given_n; eassumption|exact F]|eexists; constructor; [apply made_dict, given_t; eassumption|exact F]]. }
          destruct F as [ts F]. eexists. eapply made_tokens; [exact Di|exact Dc|exact Dt| |exact F].
          destruct G as [l|s|d0]; [constructor| |].
          -- destruct s as [|c s]; [constructor|]. exfalso. destruct (B (JStr [c]) (or_introl eq_refl)) as [s' R]. inversion R.
          -- destruct d0 as [|m d0]; [constructor|]. exfalso. destruct (B (JStr (fst m)) (or_introl eq_refl)) as [s' R]. inversion R.
        * right. exists TypeError. eapply err_reading; [exact HI|exact Dc|exact Dt|exact G|exact A|apply in_elt|exact R|exact N].
      + right. exists e. eapply err_token; eassumption.
  Qed.

  (** Usual data. *)
  Lemma usual_tokens : forall ds, (xs <- mapM token_any (map JObj ds) ;; mapM text_any xs) = (ts <- mapM token_init ds ;; ts' <- mapM tok_str_of ts ;; Ok (map embed_tok ts')).
  Proof.
    assert (E : forall ds, mapM token_any (map JObj ds) = (ts <- mapM token_init ds ;; Ok (map (fun x => (fst x, Some (snd x))) ts))).
    { induction ds as [|d ds IH]; [reflexivity|]. cbn [map mapM]. rewrite token_any_dict, IH. unfold token_init at 2. destruct (dget str_eqb (lit "n") d); cbn [bind].
      - destruct (mapM token_init ds); reflexivity.
      - destruct (dget str_eqb (lit "t") d); cbn [bind]; [destruct (mapM token_init ds); reflexivity|reflexivity]. }
    assert (F : forall ts, mapM text_any (map (fun x : jval * jdict => (fst x, Some (snd x))) ts) = (ts' <- mapM tok_str_of ts ;; Ok (map embed_tok ts'))).
    { induction ts as [|[x d] ts IH]; [reflexivity|]. cbn [map mapM]. rewrite IH. unfold text_any at 1, tok_str_of at 2. cbn [fst snd]. destruct x; try reflexivity. cbn [bind]. destruct (mapM tok_str_of ts); reflexivity. }
    intros ds. rewrite E. destruct (mapM token_init ds) as [ts|e]; cbn [bind]; [apply F|reflexivity].
  Qed.
  Lemma usual_witness : forall v, usual_entry v -> witness_any cc v = (d <- as_dict v ;; w <- witness_init cc d ;; Ok (embed w)).
  Proof.
    intros v [d [-> [HI HT]]]. cbn [as_dict bind]. unfold witness_any, witness_init. cbn [get_item]. unfold dgetE. destruct (dget str_eqb (lit "id") d) as [i|] eqn:Di; [|reflexivity].
    destruct (HI i eq_refl) as [sg ->]. cbn [bind]. destruct (dget str_eqb (lit "content") d) as [cv|].
    - destruct cv; try reflexivity. cbn [bind]. unfold embed. cbn [w_sigil w_toks]. rewrite map_map. reflexivity.
    - destruct (dget str_eqb (lit "tokens") d) as [tv|] eqn:Dt; [|reflexivity]. destruct (HT tv eq_refl) as [ds ->]. cbn [items bind]. rewrite as_dict_all. cbn [bind].
      pose proof (usual_tokens ds) as U. destruct (mapM token_any (map JObj ds)) as [xs|e]; cbn [bind] in U |- *.
      + rewrite U. destruct (mapM token_init ds) as [ts|e]; cbn [bind]; [|reflexivity]. destruct (mapM tok_str_of ts); reflexivity.
      + destruct (mapM token_init ds) as [ts|e']; cbn [bind] in U |- *; [|injection U as ->; reflexivity]. destruct (mapM tok_str_of ts) as [ts'|e']; cbn [bind] in U |- *; [discriminate|injection U as ->; reflexivity].
  Qed.
  Lemma usual_fold : forall l c0, Forall usual_entry l ->
    (c <- foldM (fun c v => d <- as_dict v ;; add_witness cc c d) l c0 ;; Ok (map embed c)) = (ws <- mapM (witness_any cc) l ;; Ok (map embed c0 ++ ws)).
  Proof.
    induction l as [|v l IH]; intros c0 H; cbn [foldM mapM bind]; [rewrite app_nil_r; reflexivity|]. inversion H as [|? ? H1 H2]; subst. rewrite (usual_witness v H1).
    destruct (as_dict v) as [d|e]; cbn [bind]; [|reflexivity]. unfold add_witness at 1. destruct (witness_init cc d) as [w|e]; cbn [bind]; [|reflexivity]. rewrite (IH (c0 ++ [w]) H2).
    destruct (mapM (witness_any cc) l) as [ws|e]; cbn [bind]; [|reflexivity]. rewrite map_app, <- app_assoc. reflexivity.
  Qed.
End Any.
