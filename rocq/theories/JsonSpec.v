(** JSON as standardised (RFC 8259), as a reader: white space, escapes and surrogate pairs are
    understood wherever the standard allows them, whoever wrote the text.  Of the numbers only the
    integers are read. *)
From Verif Require Import Py.
From Coq Require Import Permutation.
Open Scope list_scope.

Definition json_white (c : N) : bool := ((c =? 32) || (c =? 9) || (c =? 10) || (c =? 13))%N.
Definition skip_white (s : str) : str := snd (span json_white s).

Definition hex_value (c : N) : option N :=
  if ((48 <=? c) && (c <=? 57))%N then Some (c - 48)%N
  else if ((97 <=? c) && (c <=? 102))%N then Some (c - 87)%N
  else if ((65 <=? c) && (c <=? 70))%N then Some (c - 55)%N
  else None.
Definition hex4 (a b c d : N) : option N :=
  match hex_value a, hex_value b, hex_value c, hex_value d with
  | Some a, Some b, Some c, Some d => Some (4096 * a + 256 * b + 16 * c + d)%N
  | _, _, _, _ => None
  end.
Definition high_surrogate (u : N) : bool := ((55296 <=? u) && (u <=? 56319))%N.
Definition low_surrogate (u : N) : bool := ((56320 <=? u) && (u <=? 57343))%N.

(** The rest of a string after its opening quotation mark: its characters, and what follows the
    closing quotation mark.  An escaped high surrogate followed by an escaped low one is one
    character. *)
Definition simple_escape (c : N) : option N :=
  if (c =? 34)%N then Some 34%N else if (c =? 92)%N then Some 92%N else if (c =? 47)%N then Some 47%N
  else if (c =? 98)%N then Some 8%N else if (c =? 102)%N then Some 12%N else if (c =? 110)%N then Some 10%N
  else if (c =? 114)%N then Some 13%N else if (c =? 116)%N then Some 9%N else None.
Fixpoint read_string (s : str) : option (str * str) :=
  match s with
  | [] => None
  | c :: s' =>
    if (c =? 34)%N then Some ([], s')
    else if (c <? 32)%N then None
    else if (c =? 92)%N then
      match s' with
      | e :: s'' =>
        if (e =? 117)%N then
          match s'' with
          | h1 :: h2 :: h3 :: h4 :: r =>
            match hex4 h1 h2 h3 h4 with
            | None => None
            | Some u =>
              match (if high_surrogate u then
                       match r with
                       | b1 :: b2 :: l1 :: l2 :: l3 :: l4 :: r2 =>
                         if (b1 =? 92)%N && (b2 =? 117)%N then
                           match hex4 l1 l2 l3 l4 with
                           | Some v => if low_surrogate v then
                               match read_string r2 with
                               | Some (l, r') => Some ((65536 + (u - 55296) * 1024 + (v - 56320))%N :: l, r')
                               | None => None
                               end else None
                           | None => None
                           end
                         else None
                       | _ => None
                       end
                     else None) with
              | Some x => Some x
              | None => match read_string r with Some (l, r') => Some (u :: l, r') | None => None end
              end
            end
          | _ => None
          end
        else
          match simple_escape e, read_string s'' with
          | Some x, Some (l, r) => Some (x :: l, r)
          | _, _ => None
          end
      | [] => None
      end
    else match read_string s' with Some (l, r) => Some (c :: l, r) | None => None end
  end.
Definition digit (c : N) : bool := ((48 <=? c) && (c <=? 57))%N.
Definition digits_value (s : str) : N := fold_left (fun a c => 10 * a + (c - 48))%N s 0%N.
(** Digits without superfluous leading zeros. *)
Definition read_number (s : str) : option (N * str) :=
  match span digit s with
  | ([], _) => None
  | (c :: ds, r) => if (c =? 48)%N && negb (match ds with [] => true | _ => false end) then None
                    else Some (digits_value (c :: ds), r)
  end.

Fixpoint expect (w s : str) : option str :=
  match w with
  | [] => Some s
  | c :: w' => match s with d :: s' => if (c =? d)%N then expect w' s' else None | [] => None end
  end.

Fixpoint read_value (fuel : nat) (s : str) : option (jval * str) :=
  match fuel with
  | O => None
  | S f =>
    match skip_white s with
    | [] => None
    | c :: r =>
      if (c =? 34)%N then match read_string r with Some (l, r') => Some (JStr l, r') | None => None end
      else if (c =? 91)%N then
        match skip_white r with
        | d :: r' => if (d =? 93)%N then Some (JArr [], r')
                     else match read_items f r with Some (l, r'') => Some (JArr l, r'') | None => None end
        | [] => None
        end
      else if (c =? 123)%N then
        match skip_white r with
        | d :: r' => if (d =? 125)%N then Some (JObj [], r')
                     else match read_members f r with Some (l, r'') => Some (JObj l, r'') | None => None end
        | [] => None
        end
      else if (c =? 110)%N then match expect (lit "ull") r with Some r' => Some (JNull, r') | None => None end
      else if (c =? 116)%N then match expect (lit "rue") r with Some r' => Some (JBool true, r') | None => None end
      else if (c =? 102)%N then match expect (lit "alse") r with Some r' => Some (JBool false, r') | None => None end
      else if (c =? 45)%N then match read_number r with Some (n, r') => Some (JNum (- Z.of_N n), r') | None => None end
      else match read_number (c :: r) with Some (n, r') => Some (JNum (Z.of_N n), r') | None => None end
    end
  end
(** values separated by commas, up to the closing bracket *)
with read_items (fuel : nat) (s : str) : option (list jval * str) :=
  match fuel with
  | O => None
  | S f =>
    match read_value f s with
    | None => None
    | Some (v, r) =>
      match skip_white r with
      | c :: r' => if (c =? 93)%N then Some ([v], r')
                   else if (c =? 44)%N then match read_items f r' with Some (l, r'') => Some (v :: l, r'') | None => None end
                   else None
      | [] => None
      end
    end
  end
(** name : value pairs separated by commas, up to the closing brace *)
with read_members (fuel : nat) (s : str) : option (list (str * jval) * str) :=
  match fuel with
  | O => None
  | S f =>
    match skip_white s with
    | [] => None
    | q :: r =>
      if (q =? 34)%N then
        match read_string r with
        | None => None
        | Some (k, r1) =>
          match skip_white r1 with
          | [] => None
          | col :: r2 =>
            if (col =? 58)%N then
              match read_value f r2 with
              | None => None
              | Some (v, r3) =>
                match skip_white r3 with
                | c :: r' => if (c =? 125)%N then Some ([(k, v)], r')
                             else if (c =? 44)%N then match read_members f r' with Some (l, r'') => Some ((k, v) :: l, r'') | None => None end
                             else None
                | [] => None
                end
              end
            else None
          end
        end
      else None
    end
  end.

(** A JSON text: one value, and nothing but white space around it. *)
Definition json_read (s : str) : option jval :=
  match read_value (S (length s)) s with
  | Some (v, r) => match skip_white r with [] => Some v | _ => None end
  | None => None
  end.

(** Two values are the same up to the order of the members of objects. *)
Inductive same_value : jval -> jval -> Prop :=
| sj_null : same_value JNull JNull
| sj_bool : forall b, same_value (JBool b) (JBool b)
| sj_num : forall z, same_value (JNum z) (JNum z)
| sj_str : forall s, same_value (JStr s) (JStr s)
| sj_arr : forall l l', Forall2 same_value l l' -> same_value (JArr l) (JArr l')
| sj_obj : forall d e d', Permutation d e -> Forall2 (fun a b => fst a = fst b /\ same_value (snd a) (snd b)) e d' ->
    same_value (JObj d) (JObj d').
