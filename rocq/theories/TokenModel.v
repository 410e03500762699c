(** Model of the tokenizer, Token, Witness and Collation classes
    (collatex-pythonport/collatex/core_classes.py). *)
From Verif Require Import Py.
Open Scope list_scope.

(** Classification of characters used by Python's [re] for [\w] and [\s].
    The Unicode tables are a parameter of the model. Used by core_classes.py:162, 194, 360. *)
Record cclass := { isw : N -> bool; iss : N -> bool }.

(** White space characters are not word characters (true of Python's tables). Assumed about core_classes.py:162. *)
Definition cclass_ok (cc : cclass) : Prop := forall c, iss cc c = true -> isw cc c = false.

(** ASCII instance, for examples: [A-Za-z0-9_] and [ \t\n\r\f\v] plus 0x1c-0x1f. *)
Definition ascii_cc : cclass :=
  {| isw := fun c => ((65 <=? c) && (c <=? 90) || (97 <=? c) && (c <=? 122)
                      || (48 <=? c) && (c <=? 57) || (c =? 95))%N;
     iss := fun c => ((9 <=? c) && (c <=? 13) || (28 <=? c) && (c <=? 31) || (c =? 32))%N |}.

Section Tokenizer.
  Variable cc : cclass.

  (** core_classes.py:158-162  WordPunctuationTokenizer.tokenize:
      [re.findall(r'\w+\s*|\W+', contents)].  At each position the first
      alternative needs a word character, the second a non-word character, so
      some alternative always matches and no character is skipped; both
      alternatives are greedy and never need to backtrack.  [fuel] bounds the
      number of matches by the length of the text. *)
  Fixpoint tokenize_aux (fuel : nat) (s : str) : list str :=
    match fuel with
    | 0 => []
    | S f =>
      match s with
      | [] => []
      | c :: _ =>
        if isw cc c then
          let (w, r) := span (isw cc) s in
          let (sp, r') := span (iss cc) r in
          (w ++ sp) :: tokenize_aux f r'
        else
          let (n, r) := span (fun x => negb (isw cc x)) s in
          n :: tokenize_aux f r
      end
    end.
  (** core_classes.py:158-162. *)
  Definition tokenize (s : str) : list str := tokenize_aux (length s) s.

  (** core_classes.py:194  [re.sub(r'\s+$', '', token_string)].  The text removed
      is the maximal run of white space at the end (a line feed is white space,
      so Python's [$] before a final line feed makes no difference). *)
  Definition rstrip (s : str) : str := rev (snd (span (iss cc) (rev s))).

  (** core_classes.py:165-178  Token.__init__ for a given dictionary: the token
      string is the 'n' value, else the 't' value, else TokenError. *)
  Definition token_init (d : jdict) : res (jval * jdict) :=
    match dget str_eqb (lit "n") d with
    | Some v => Ok (v, d)
    | None =>
      match dget str_eqb (lit "t") d with
      | Some v => Ok (v, d)
      | None => Raise TokenError
      end
    end.

  (** A Token object: its token_string and its token_data. core_classes.py:165-178. *)
  Record tok0 := { t0_str : str; t0_data : jdict }.

  (** A Witness object: its siglum and its tokens. core_classes.py:184-202. *)
  Record witness := { w_sigil : str; w_toks : list tok0 }.

  (** core_classes.py:194  token created for a piece of plain text:
      [Token({'t': token_string, 'n': re.sub(...)})] ('n' is used). *)
  Definition plain_token (s : str) : tok0 :=
    {| t0_str := rstrip s; t0_data := [(lit "t", JStr s); (lit "n", JStr (rstrip s))] |}.

  (** core_classes.py:197, 199: [Token(tk)] and the later [' '.join(x.token_string)],
      which raises TypeError when a token string is not a str.  (In Python the
      TypeError comes after all tokens were created; a TokenError of a later token
      takes precedence.  [witness_init] keeps that order.) *)
  Definition tok_str_of (v : jval * jdict) : res tok0 :=
    match fst v with
    | JStr s => Ok {| t0_str := s; t0_data := snd v |}
    | _ => Raise TypeError
    end.

  (** core_classes.py:172, 196-197: the data of a token must be a dictionary. *)
  Definition as_dict (v : jval) : res jdict :=
    match v with JObj d => Ok d | _ => Raise TypeError end.

  (** core_classes.py:184-199  Witness.__init__.  Simplification: the id is
      required to be a string and 'tokens' a list of dictionaries (other types
      give TypeError here; Python would fail later or behave oddly). *)
  Definition witness_init (d : jdict) : res witness :=
    match dget str_eqb (lit "id") d with
    | None => Raise KeyError
    | Some (JStr sigil) =>
      match dget str_eqb (lit "content") d with
      | Some (JStr s) => Ok {| w_sigil := sigil; w_toks := map plain_token (tokenize s) |}
      | Some _ => Raise TypeError
      | None =>
        match dget str_eqb (lit "tokens") d with
        | Some (JArr l) =>
          ds <- mapM as_dict l ;;
          ts <- mapM token_init ds ;;
          ts' <- mapM tok_str_of ts ;;
          Ok {| w_sigil := sigil; w_toks := ts' |}
        | Some _ => Raise TypeError
        | None => Ok {| w_sigil := sigil; w_toks := [] |}
        end
      end
    | Some _ => Raise TypeError
    end.

  (** core_classes.py:37-46  Collation: __init__, add_witness, add_plain_witness.
      A Collation object is its list of witnesses. *)
  Definition collation := list witness.
  (** core_classes.py:38-39 Collation.__init__. *)
  Definition collation_empty : collation := [].
  (** core_classes.py:41-43 add_witness. *)
  Definition add_witness (c : collation) (d : jdict) : res collation :=
    w <- witness_init d ;; Ok (c ++ [w]).
  (** core_classes.py:45-46 add_plain_witness. *)
  Definition add_plain_witness (c : collation) (sigil content : str) : res collation :=
    add_witness c [(lit "id", JStr sigil); (lit "content", JStr content)].

  (** core_classes.py:22-29  create_from_dict: [witnesses[:limit]] (limit = None means
      all; a negative limit drops that many witnesses from the end). *)
  Definition py_prefix {A} (l : list A) (limit : option Z) : list A :=
    match limit with
    | None => l
    | Some k => firstn (Z.to_nat (if Z.ltb k 0 then Z.of_nat (length l) + k else k)) l
    end.

  (** core_classes.py:22-29. *)
  Definition create_from_dict (data : jdict) (limit : option Z) : res collation :=
    match dget str_eqb (lit "witnesses") data with
    | Some (JArr l) =>
      let l' := py_prefix l limit in
      foldM (fun c v => d <- as_dict v ;; add_witness c d) l' collation_empty
    | Some _ => Raise TypeError
    | None => Raise KeyError
    end.
End Tokenizer.
