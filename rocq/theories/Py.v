(** Python run-time vocabulary used by all model files: exceptions as values,
    insertion-ordered dicts, strings as lists of code points.  No collatex code
    is modelled in this file. *)
From Coq Require Export List Arith NArith ZArith Bool Lia.
From Coq Require String Ascii Decimal.
Export ListNotations.
Export String.StringSyntax.

(** Exceptions that the modelled code can raise.  [OutOfFuel] is not a Python
    exception: it is the value a fuelled loop returns when its fuel is exhausted,
    and every theorem excludes it by stating an [Ok] (or another exception). exceptions.py, core_classes.py:177, 292, core_functions.py:57, 89, tokenindex.py:102 and the exceptions of Python itself. *)
Inductive exn :=
| AssertionError | IndexError | KeyError | TypeError | AttributeError | ValueError
| TokenError            (* collatex/exceptions.py:9-10 *)
| SegmentationError     (* collatex/exceptions.py:15-16 *)
| VertexIsNull          (* Exception('Vertex is null ...'), edit_graph_aligner.py:74-76 *)
| UnknownOutput         (* Exception("Unknown output type: ..."), core_functions.py:89 *)
| UnknownLayout         (* Exception("Unknown table layout: ..."), core_classes.py:127 *)
| WitnessNotAdded       (* Exception("Witness ... is not added"), tokenindex.py:102 *)
| GraphCycle            (* networkx.NetworkXUnfeasible raised by topological_sort *)
| RangeSetParseError    (* ClusterShell/RangeSet.py:51 *)
| VertexNotFound        (* Exception("Vertex with ... not found!"), core_classes.py:291 *)
| OutOfFuel.

(** The result of a call: a value or an exception; for every function modelled, e.g. core_classes.py:177. *)
Inductive res (A : Type) := Ok (a : A) | Raise (e : exn).
Arguments Ok {A} a.
Arguments Raise {A} e.

(** One statement after another; an exception ends the function, e.g. core_classes.py:184-199. *)
Definition bind {A B} (m : res A) (f : A -> res B) : res B :=
  match m with Ok a => f a | Raise e => Raise e end.

Notation "x <- m ;; k" := (bind m (fun x => k))
  (at level 61, m at next level, right associativity).
Notation "' p <- m ;; k" := (bind m (fun x => match x with p => k end))
  (at level 61, p pattern, m at next level, right associativity).

(** [for x in l: state = f(state, x)] with exceptions. E.g. tokenindex.py:49-65, core_classes.py:303-312. *)
Fixpoint foldM {A B} (f : B -> A -> res B) (l : list A) (b : B) : res B :=
  match l with
  | [] => Ok b
  | x :: l' => bind (f b x) (fun b' => foldM f l' b')
  end.

(** A list comprehension, e.g. core_classes.py:61, with exceptions. *)
Fixpoint mapM {A B} (f : A -> res B) (l : list A) : res (list B) :=
  match l with
  | [] => Ok []
  | x :: l' => bind (f x) (fun y => bind (mapM f l') (fun ys => Ok (y :: ys)))
  end.

(** List subscripts [a[i]] for i >= 0 and [a[i] = x]. E.g. edit_graph_aligner.py:72, 81. *)
Definition aget {A} (l : list A) (i : nat) : res A :=
  match nth_error l i with Some x => Ok x | None => Raise IndexError end.

(** [a[i] = x] for an i in range, e.g. edit_graph_aligner.py:347. *)
Fixpoint upd {A} (l : list A) (i : nat) (x : A) : list A :=
  match l, i with
  | [], _ => []
  | _ :: l', 0 => x :: l'
  | y :: l', S i' => y :: upd l' i' x
  end.

(** [a[i] = x], e.g. edit_graph_aligner.py:347. *)
Definition aset {A} (l : list A) (i : nat) (x : A) : res (list A) :=
  if i <? length l then Ok (upd l i x) else Raise IndexError.

(** Insertion-ordered dictionaries (Python >= 3.7). *)
Section Dict.
  Context {K V : Type} (eqb : K -> K -> bool).
  (** [d.get(k)], e.g. core_classes.py:114, 304. *)
  Fixpoint dget (k : K) (d : list (K * V)) : option V :=
    match d with
    | [] => None
    | (k', v) :: d' => if eqb k k' then Some v else dget k d'
    end.
  (** [d[k] = v]: an existing key keeps its place, a new key goes to the end. E.g. core_classes.py:70, 214. *)
  Fixpoint dset (k : K) (v : V) (d : list (K * V)) : list (K * V) :=
    match d with
    | [] => [(k, v)]
    | (k', v') :: d' => if eqb k k' then (k', v) :: d' else (k', v') :: dset k v d'
    end.
  (** [del d[k]] (the caller tests presence). E.g. edit_graph_aligner.py:96-97. *)
  Fixpoint ddel (k : K) (d : list (K * V)) : list (K * V) :=
    match d with
    | [] => []
    | (k', v') :: d' => if eqb k k' then d' else (k', v') :: ddel k d'
    end.
  (** [k in d], e.g. core_classes.py:172, 211. *)
  Definition dmem (k : K) (d : list (K * V)) : bool :=
    match dget k d with Some _ => true | None => false end.
  (** [d[k]] E.g. core_classes.py:186, 380. *)
  Definition dgetE (k : K) (d : list (K * V)) : res V :=
    match dget k d with Some v => Ok v | None => Raise KeyError end.
End Dict.

(** Strings. Strings of Python; e.g. core_classes.py:173. *)
Definition char := N.
(** A string is its list of code points; e.g. core_classes.py:173. *)
Definition str := list N.

(** [==] on strings, e.g. core_classes.py:289. *)
Fixpoint str_eqb (a b : str) : bool :=
  match a, b with
  | [], [] => true
  | x :: a', y :: b' => N.eqb x y && str_eqb a' b'
  | _, _ => false
  end.

(** Python's [<] on strings: lexicographic by code point. Used by sorted, core_functions.py:129, 149. *)
Fixpoint str_ltb (a b : str) : bool :=
  match a, b with
  | _, [] => false
  | [], _ :: _ => true
  | x :: a', y :: b' => if N.ltb x y then true else if N.eqb x y then str_ltb a' b' else false
  end.

(** [sep.join(l)] E.g. core_functions.py:175. *)
Fixpoint str_join (sep : str) (l : list str) : str :=
  match l with
  | [] => []
  | [x] => x
  | x :: l' => x ++ sep ++ str_join sep l'
  end.

(** Literals: [lit "abc"]. E.g. core_classes.py:228-229. *)
Fixpoint lit (s : String.string) : str :=
  match s with
  | String.EmptyString => []
  | String.String a s' => Ascii.N_of_ascii a :: lit s'
  end.

Arguments lit s%string_scope.

(** Decimal rendering of a natural number, [str(n)]. tokenindex.py:64. *)
Fixpoint uint_chars (u : Decimal.uint) : str :=
  match u with
  | Decimal.Nil => []
  | Decimal.D0 u' => 48%N :: uint_chars u'
  | Decimal.D1 u' => 49%N :: uint_chars u'
  | Decimal.D2 u' => 50%N :: uint_chars u'
  | Decimal.D3 u' => 51%N :: uint_chars u'
  | Decimal.D4 u' => 52%N :: uint_chars u'
  | Decimal.D5 u' => 53%N :: uint_chars u'
  | Decimal.D6 u' => 54%N :: uint_chars u'
  | Decimal.D7 u' => 55%N :: uint_chars u'
  | Decimal.D8 u' => 56%N :: uint_chars u'
  | Decimal.D9 u' => 57%N :: uint_chars u'
  end.
(** str(n), tokenindex.py:64. *)
Definition str_of_nat (n : nat) : str := uint_chars (Nat.to_uint n).

(** JSON-like Python values (what json.load produces). core_classes.py:33-36. *)
Inductive jval :=
| JNull | JBool (b : bool) | JNum (z : Z) | JStr (s : str)
| JArr (l : list jval) | JObj (d : list (str * jval)).

(** A dictionary with texts as keys, core_classes.py:33-36. *)
Definition jdict := list (str * jval).

(** Span of the longest prefix satisfying [p]. Used for core_classes.py:162. *)
Fixpoint span {A} (p : A -> bool) (l : list A) : list A * list A :=
  match l with
  | [] => ([], [])
  | x :: l' => if p x then let (a, b) := span p l' in (x :: a, b) else ([], l)
  end.
