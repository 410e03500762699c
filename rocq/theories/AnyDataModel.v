(** Model of Witness, Token and Collation (collatex/core_classes.py) and of the beginning of collate() for data of any
    JSON type: ids that are not texts, tokens that are not dictionaries, texts and objects in the place of lists.
    TokenModel has the usual case; C98 relates the two. *)
From Verif Require Import Py TokenModel SuffixModel IndexModel.
Open Scope list_scope.

(** A Token object: token_string, and token_data, which is None for Token(None). core_classes.py:165-178. *)
Record tok_any := { ta_str : str; ta_data : option jdict }.
(** A Witness object; the sigil is whatever the id was. core_classes.py:184-199. *)
Record wit_any := { wa_id : jval; wa_toks : list tok_any }.

(** [v[k]] for a text k: only dictionaries have such items. core_classes.py:173, 175, 186, 189, 196. *)
Definition get_item (v : jval) (k : str) : res jval :=
  match v with JObj d => dgetE str_eqb k d | _ => Raise TypeError end.
(** [c in v] for a text of one character: an element of a list, a key of a dictionary, a part of a text. core_classes.py:172, 174: one comparison of in. *)
Definition is_str (k : str) (v : jval) : bool := match v with JStr s => str_eqb k s | _ => false end.
(** core_classes.py:172, 174: [c in tokendata]. *)
Definition char_in (c : N) (v : jval) : res bool :=
  match v with
  | JObj d => Ok (dmem str_eqb [c] d)
  | JArr l => Ok (existsb (is_str [c]) l)
  | JStr s => Ok (existsb (N.eqb c) s)
  | _ => Raise TypeError
  end.
(** [for x in v]: the elements of a list, the characters of a text, the keys of a dictionary. core_classes.py:196. *)
Definition items (v : jval) : res (list jval) :=
  match v with
  | JArr l => Ok l
  | JStr s => Ok (map (fun c => JStr [c]) s)
  | JObj d => Ok (map (fun m => JStr (fst m)) d)
  | _ => Raise TypeError
  end.

(** core_classes.py:165-178  Token.__init__ ('n' is character 110, 't' is 116). *)
Definition token_any (v : jval) : res (jval * option jdict) :=
  match v with
  | JNull => Ok (JStr [], None)
  | _ =>
    let with_data x := match v with JObj d => Ok (x, Some d) | _ => Raise TypeError end in
    n <- char_in 110 v ;;
    if (n : bool) then x <- get_item v [110%N] ;; with_data x
    else
      t <- char_in 116 v ;;
      if (t : bool) then x <- get_item v [116%N] ;; with_data x else Raise TokenError
  end.
(** core_classes.py:199: join wants texts. *)
Definition text_any (x : jval * option jdict) : res tok_any :=
  match fst x with JStr s => Ok {| ta_str := s; ta_data := snd x |} | _ => Raise TypeError end.

(** core_classes.py:165-178: a token of TokenModel seen as a token of any data. *)
Definition embed_tok (t : tok0) : tok_any := {| ta_str := t0_str t; ta_data := Some (t0_data t) |}.
(** core_classes.py:184-199: a witness of TokenModel seen as a witness of any data. *)
Definition embed (w : witness) : wit_any := {| wa_id := JStr (w_sigil w); wa_toks := map embed_tok (w_toks w) |}.

Section Any.
  Variable cc : cclass.

  (** core_classes.py:184-199  Witness.__init__.  After [witnessdata['id']] the data is a dictionary. *)
  Definition witness_any (v : jval) : res wit_any :=
    i <- get_item v (lit "id") ;;
    match v with
    | JObj d =>
      match dget str_eqb (lit "content") d with
      | Some (JStr s) => Ok {| wa_id := i; wa_toks := map (fun s => embed_tok (plain_token cc s)) (tokenize cc s) |}
      | Some _ => Raise TypeError
      | None =>
        match dget str_eqb (lit "tokens") d with
        | Some tv => l <- items tv ;; xs <- mapM token_any l ;; ts <- mapM text_any xs ;; Ok {| wa_id := i; wa_toks := ts |}
        | None => Ok {| wa_id := i; wa_toks := [] |}
        end
      end
    | _ => Raise TypeError
    end.

  (** core_classes.py:25  [witnesses[:limit]]: lists and texts have slices.  (A dictionary raises TypeError before Python
      3.12, in which slices became hashable, and KeyError since.) *)
  Definition slice_any (v : jval) (limit : option Z) : res jval :=
    match v with
    | JArr l => Ok (JArr (py_prefix l limit))
    | JStr s => Ok (JStr (py_prefix s limit))
    | _ => Raise TypeError
    end.
  (** core_classes.py:21-29  create_from_dict. *)
  Definition create_any (data : jval) (limit : option Z) : res (list wit_any) :=
    ws <- get_item data (lit "witnesses") ;;
    s <- slice_any ws limit ;;
    l <- items s ;;
    mapM witness_any l.
  (** core_functions.py:36-40: collate called with a dictionary goes through the value itself. *)
  Definition collate_reads (data : jdict) : res (list wit_any) :=
    ws <- get_item (JObj data) (lit "witnesses") ;;
    l <- items ws ;;
    mapM witness_any l.
End Any.

(** tokenindex.py:44-66: the loop of _prepare_token_array, as far as it can fail: an empty witness is an AssertionError, a
    list or dictionary for a sigil cannot be the key of witness_ranges, and token_data None has no items to set; line 66
    pops from an empty list if there is no witness. *)
Definition hashable (v : jval) : bool := match v with JArr _ | JObj _ => false | _ => true end.
(** tokenindex.py:49-65, as far as it can fail. *)
Fixpoint prepare_loop_any (c : list wit_any) : res unit :=
  match c with
  | [] => Ok tt
  | w :: c' =>
    if length (wa_toks w) =? 0 then Raise AssertionError
    else if negb (hashable (wa_id w)) then Raise TypeError
    else if existsb (fun t => match ta_data t with None => true | Some _ => false end) (wa_toks w) then Raise TypeError
    else prepare_loop_any c'
  end.
(** tokenindex.py:44-66. *)
Definition prepare_any (c : list wit_any) : res unit :=
  _ <- prepare_loop_any c ;; match c with [] => Raise IndexError | _ => Ok tt end.
