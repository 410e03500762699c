(** Model of the parts of linsuffarr.py that the aligner does not use: texts split into words, the text of
    a stretch of tokens, features attached to suffixes, saving and loading, and the printed table. *)
From Verif Require Import Py TokenModel SuffixModel RangeSetModel.
From Coq Require Import ZArith.
Open Scope list_scope.
Open Scope nat_scope.

(** str.replace for a pattern of one character and for one of two characters: occurrences from the
    left, not overlapping. linsuffarr.py:638, 674-675. *)
Definition replace1 (c : N) (new s : str) : str := flat_map (fun x => if N.eqb x c then new else [x]) s.
(** linsuffarr.py:674-675: two characters. *)
Fixpoint replace2 (a b : N) (new s : str) : str :=
  match s with
  | x :: s' =>
    match s' with
    | y :: s'' => if N.eqb x a && N.eqb y b then new ++ replace2 a b new s'' else x :: replace2 a b new s'
    | [] => [x]
    end
  | [] => []
  end.

(** linsuffarr.py:413, the separator of words. *)
Definition space : N := 32%N.
(** linsuffarr.py:443, the end of a sentence. *)
Definition newline : N := 10%N.

(** linsuffarr.py:45-47  the processing units (any other number raises Exception, line 417: not modelled). *)
Inductive unit_type := UNIT_BYTE | UNIT_CHARACTER | UNIT_WORD.

(** What is given as text: a str, or a list of strings as tokenindex.py:115 does.  Byte strings are not
    modelled. *)
Inductive text := TStr (s : str) | TToks (l : list str).

(** linsuffarr.py:600-642  tokenize.  Neither str nor list has a method decode in Python 3, and a list no
    method replace. *)
Definition unit_tokens (u : unit_type) (t : text) : res (list str) :=
  match u, t with
  | UNIT_WORD, TStr s => Ok (filter (fun tok => negb (str_eqb tok [])) (split_on space (replace1 newline [space; newline; space] s)))
  | UNIT_WORD, TToks _ => Raise AttributeError
  | UNIT_CHARACTER, _ => Raise AttributeError
  | UNIT_BYTE, TStr s => Ok (map (fun c => [c]) s)
  | UNIT_BYTE, TToks l => Ok l
  end.

(** A feature: the values by rank, the default, and whether it was added by addFeature (whose lookup
    tests the rank for truth) or by addFeatureSA. linsuffarr.py:458-598. *)
Record feature := { ft_values : list jval; ft_default : jval; ft_truthy : bool }.

(** A SuffixArray object: [ta_sa] has vocabulary, string and SA; [ta_attrs] the attributes
    _NAME_values, NAME_default and NAME; [ta_features] the list features.  (A feature whose name is that of
    another attribute of the object is not modelled.) linsuffarr.py:411-454. *)
Record textarray := {
  ta_unit : unit_type; ta_sa : suffarr; ta_vocSize : nat; ta_nbSentences : nat;
  ta_attrs : list (str * feature); ta_features : list str }.

(** linsuffarr.py:587-598: the attributes of a feature. *)
Definition set_feature (ta : textarray) (name : str) (f : feature) : textarray :=
  {| ta_unit := ta_unit ta; ta_sa := ta_sa ta; ta_vocSize := ta_vocSize ta; ta_nbSentences := ta_nbSentences ta;
     ta_attrs := dset str_eqb name f (ta_attrs ta); ta_features := ta_features ta ++ [name] |}.

(** linsuffarr.py:458-547  addFeatureSA (with the name given or taken from the callback). *)
Definition add_feature_sa (ta : textarray) (callback : textarray -> res (list jval)) (default : jval) (name : str) : res textarray :=
  vals <- callback ta ;;
  Ok (set_feature ta name {| ft_values := vals; ft_default := default; ft_truthy := false |}).

(** linsuffarr.py:354-403  LCP as a callback (default None, line 453). *)
Definition lcp_callback (ta : textarray) : res (list jval) := Ok (map (fun k => JNum (Z.of_nat k)) (sa_LCP (ta_sa ta))).

(** linsuffarr.py:443, 765. *)
Definition count_str (x : str) (l : list str) : nat := length (filter (str_eqb x) l).

(** linsuffarr.py:411-456  __init__.  [string.count(tokId.get('\n', 0))] counts the newline tokens:
    without any, the identifier 0 does not occur in the string. *)
Definition create_array (t : text) (u : unit_type) (noLCPs : bool) : res textarray :=
  toks <- unit_tokens u t ;;
  sa <- suffix_array toks ;;
  let ta := {| ta_unit := u; ta_sa := sa;
               ta_vocSize := length (sa_voc sa) - (if existsb (str_eqb [newline]) (sa_voc sa) then 1 else 0);
               ta_nbSentences := count_str [newline] toks; ta_attrs := []; ta_features := [] |} in
  if noLCPs then Ok ta else add_feature_sa ta lcp_callback JNull (lit "LCP").

(** linsuffarr.py:786, 869  self._LCP_values: an AttributeError when the feature is missing.  (Values
    that are not natural numbers, which only a feature of this name added by the user can have, are
    simplified to a TypeError.) *)
Definition lcp_values (ta : textarray) : res (list nat) :=
  match dget str_eqb (lit "LCP") (ta_attrs ta) with
  | None => Raise AttributeError
  | Some f => mapM (fun v => match v with JNum z => if Z.leb 0 z then Ok (Z.to_nat z) else Raise TypeError | _ => Raise TypeError end) (ft_values f)
  end.

(** linsuffarr.py:776-822  _findOne of a text. *)
Definition ta_find_one (ta : textarray) (sub : text) : res (option nat) :=
  _ <- lcp_values ta ;;
  toks <- unit_tokens (ta_unit ta) sub ;;
  find_one (ta_sa ta) toks.

(** linsuffarr.py:540-545 and 591-596  the lookup of a feature: ta.NAME(substring). *)
Definition lookup (ta : textarray) (name : str) (sub : text) : res jval :=
  match dget str_eqb name (ta_attrs ta) with
  | None => Raise AttributeError
  | Some f =>
    r <- ta_find_one ta sub ;;
    match r with
    | None => Ok (ft_default f)
    | Some i => if ft_truthy f && (i =? 0) then Ok (ft_default f)
                else match nth_error (ft_values f) i with Some v => Ok v | None => Raise IndexError end
    end
  end.

(** linsuffarr.py:549-598  addFeature; [arguments] are the names given or those of the callback's
    parameters. *)
Definition feature_values (ta : textarray) (name : str) : res (list jval) :=
  match dget str_eqb name (ta_attrs ta) with Some f => Ok (ft_values f) | None => Raise AttributeError end.
(** linsuffarr.py:549-598. *)
Definition add_feature (ta : textarray) (callback : list jval -> res jval) (default : jval) (name : str) (arguments : list str) : res textarray :=
  args <- mapM (feature_values ta) arguments ;;
  vals <- mapM (fun i =>
            row <- mapM (fun vs => match nth_error vs i with Some v => Ok v | None => Raise IndexError end) args ;;
            callback row) (seq 0 (length (sa_SA (ta_sa ta)))) ;;
  Ok (set_feature ta name {| ft_values := vals; ft_default := default; ft_truthy := true |}).

(** zip of the positions and the slices of the features. linsuffarr.py:906. *)
Fixpoint zip_features (l : list nat) (fs : list (list jval)) : list (nat * list jval) :=
  match l with
  | [] => []
  | p :: l' =>
    match fold_right (fun f acc => match f, acc with v :: _, Some vs => Some (v :: vs) | _, _ => None end) (Some []) fs with
    | Some vs => (p, vs) :: zip_features l' (map (@tl jval) fs)
    | None => []
    end
  end.

(** linsuffarr.py:824-906  find(subString, features).  Without features Python gives the positions alone,
    here paired with []. *)
Definition find_features (ta : textarray) (sub : text) (features : list str) : res (list (nat * list jval)) :=
  LCPs <- lcp_values ta ;;
  m <- ta_find_one ta sub ;;
  match m with
  | None => Ok []
  | Some middle =>
    toks <- unit_tokens (ta_unit ta) sub ;;
    ids <- mapM (tok_id (sa_voc (ta_sa ta))) toks ;;
    let k := length ids in
    let len := length (sa_string (ta_sa ta)) in
    _ <- aget LCPs middle ;;
    lower <- find_lower LCPs k middle ;;
    upper <- find_upper len LCPs len k (middle + 1) ;;
    fs <- mapM (feature_values ta) features ;;
    Ok (zip_features (slice (sa_SA (ta_sa ta)) lower (upper - lower)) (map (fun f => slice f lower (upper - lower)) fs))
  end.

(** linsuffarr.py:671-680  the text of a sequence of identifiers: voc[0] is None, which join refuses. *)
Fixpoint join_with (sep : str) (l : list str) : str :=
  match l with
  | [] => []
  | [x] => x
  | x :: l' => x ++ sep ++ join_with sep l'
  end.
(** linsuffarr.py:672: voc[id]. *)
Definition voc_entry (voc : list str) (id : nat) : res (option str) :=
  match id with
  | 0 => Ok None
  | S i => match nth_error voc i with Some t => Ok (Some t) | None => Raise IndexError end
  end.
(** linsuffarr.py:671-680. *)
Definition repr_ids (ta : textarray) (ids : list nat) (len : nat) : res str :=
  toks <- mapM (voc_entry (sa_voc (ta_sa ta))) (firstn len ids) ;;
  toks <- mapM (fun t => match t with Some x => Ok x | None => Raise TypeError end) toks ;;
  Ok (match ta_unit ta with
      | UNIT_WORD => replace2 newline space [newline] (replace2 space newline [newline] (join_with [space] toks))
      | _ => join_with [] toks
      end).

(** linsuffarr.py:644-680  reprString(offset, length).  Negative offsets are not modelled. *)
Definition repr_string (ta : textarray) (p len : nat) : res str :=
  let s := sa_string (ta_sa ta) in
  let len := Nat.min len (length s - p) in
  repr_ids ta (slice s p len) len.

(** linsuffarr.py:682-706  the rows of __str__: position, text of the suffix and values of the features;
    quoting and padding are left out.  The features are read at the index in the slice. *)
Definition table_rows (ta : textarray) (start : nat) (stop : option nat) (maxlen : nat) : res (list (nat * str * list (str * jval))) :=
  let stop := match stop with Some e => e | None => length (sa_string (ta_sa ta)) end in
  let part := slice (sa_SA (ta_sa ta)) start (stop - start) in
  mapM (fun '(i, p) =>
    suffix <- repr_string ta p maxlen ;;
    feats <- mapM (fun name => vs <- feature_values ta name ;;
                     match nth_error vs i with Some v => Ok (name, v) | None => Raise IndexError end) (ta_features ta) ;;
    Ok (p, firstn maxlen suffix, feats)) (combine (seq 0 (length part)) part).

(** linsuffarr.py:708-736  toFile: the data that is pickled.  _open gives a text file for every name that
    does not end with .gz (lines 61-79), and writing bytes to it is a TypeError in Python 3. *)
Record saved := { sv_string : list nat; sv_unit : unit_type; sv_voc : list str; sv_vocSize : nat; sv_SA : list nat;
  sv_features : list str; sv_data : list (list jval * jval) }.
(** linsuffarr.py:62-79: the test of the file name. *)
Definition ends_in_gz (filename : str) : bool := str_eqb (rev (firstn 3 (rev filename))) (lit ".gz").
(** linsuffarr.py:708-736. *)
Definition to_file (ta : textarray) (filename : str) : res saved :=
  data <- mapM (fun name => match dget str_eqb name (ta_attrs ta) with
                            | Some f => Ok (ft_values f, ft_default f) | None => Raise AttributeError end) (ta_features ta) ;;
  if ends_in_gz filename then
    Ok {| sv_string := sa_string (ta_sa ta); sv_unit := ta_unit ta; sv_voc := sa_voc (ta_sa ta); sv_vocSize := ta_vocSize ta;
          sv_SA := sa_SA (ta_sa ta); sv_features := ta_features ta; sv_data := data |}
  else Raise TypeError.

(** linsuffarr.py:738-774  fromFile: [sa_LCP] is not read by the functions above and stays empty. *)
Definition from_file (d : saved) : res textarray :=
  let newlines := match index_of [newline] (sv_voc d) with Some i => S i | None => 0 end in
  let ta := {| ta_unit := sv_unit d;
               ta_sa := {| sa_voc := sv_voc d; sa_string := sv_string d; sa_SA := sv_SA d; sa_LCP := [] |};
               ta_vocSize := sv_vocSize d; ta_nbSentences := length (filter (Nat.eqb newlines) (sv_string d));
               ta_attrs := []; ta_features := [] |} in
  foldM (fun ta '(name, (vals, default)) => add_feature_sa ta (fun _ => Ok vals) default name) (combine (sv_features d) (sv_data d)) ta.
