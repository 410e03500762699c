(** Specification vocabulary for the exports: readers for csv and for the subset of XML
    that is written, and what a cell of the table says. *)
From Verif Require Import Py TokenModel IndexModel GraphModel TableModel CollateModel.
From Verif Require SuffixSpec.
Open Scope list_scope.
Open Scope nat_scope.

(** ** Cells *)
(** [s] is the text of the tokens [ts]: their 't' values one after the other. *)
Definition text_of (ts : list token) (s : str) : Prop :=
  exists l, Forall2 (fun tk x => dget str_eqb (lit "t") (tk_data tk) = Some (JStr x)) ts l /\ s = concat l.
(** The text of a cell of a row; nothing for an empty cell. *)
Definition cell_says (c : cell) (s : str) : Prop :=
  match c with Some ts => text_of ts s | None => s = [] end.

(** The readings of a column: exactly the witnesses that have a cell in it, each once, with
    the text of the cell, in the order of the sigla. *)
Definition str_before (a b : str) : Prop := SuffixSpec.str_lt a b.
Fixpoint increasing (l : list str) : Prop :=
  match l with
  | [] => True
  | a :: l' => Forall (str_before a) l' /\ increasing l'
  end.
Definition readings_of (col : column) (rs : list (str * str)) : Prop :=
  increasing (map fst rs) /\
  (forall sg, In sg (map fst rs) <-> In sg (map fst (c_cells col))) /\
  (forall sg s, In (sg, s) rs -> exists ts, In (sg, ts) (c_cells col) /\ text_of ts s).

(** ** Line breaks: CR LF and CR become LF *)
Fixpoint newlines (s : str) : str :=
  match s with
  | [] => []
  | 13%N :: 10%N :: s' => 10%N :: newlines s'
  | 13%N :: s' => 10%N :: newlines s'
  | c :: s' => c :: newlines s'
  end.

(** ** A csv reader
    Fields are separated by [delim]; a record ends with LF, CR or CR LF; a field that
    begins with a quotation mark ends at the next quotation mark that is not doubled. *)
Inductive csv_state := AtStart | InPlain | InQuoted | AfterQuote.
Definition csv_record (st : csv_state) (row : list str) (field : str) : list str :=
  match st, row with AtStart, [] => [] | _, _ => row ++ [field] end.
Fixpoint csv_reader (delim : N) (st : csv_state) (row : list str) (field : str) (s : str) : list (list str) :=
  match s with
  | [] => match st, row with AtStart, [] => [] | _, _ => [row ++ [field]] end
  | c :: s' =>
    match st with
    | InQuoted =>
      if N.eqb c 34 then csv_reader delim AfterQuote row field s'
      else csv_reader delim InQuoted row (field ++ [c]) s'
    | _ =>
      if N.eqb c 34 then
        match st with
        | AtStart => csv_reader delim InQuoted row field s'
        | AfterQuote => csv_reader delim InQuoted row (field ++ [c]) s'
        | _ => csv_reader delim InPlain row (field ++ [c]) s'
        end
      else if N.eqb c delim then csv_reader delim AtStart (row ++ [field]) [] s'
      else if N.eqb c 10 then csv_record st row field :: csv_reader delim AtStart [] [] s'
      else if N.eqb c 13 then
        csv_record st row field ::
        match s' with
        | 10%N :: s'' => csv_reader delim AtStart [] [] s''
        | _ => csv_reader delim AtStart [] [] s'
        end
      else csv_reader delim InPlain row (field ++ [c]) s'
    end
  end.
Definition csv_read (delim : N) (s : str) : list (list str) := csv_reader delim AtStart [] [] s.

(** ** An XML reader
    The events of a document: start and end of elements, with the values of attributes, and
    the characters between them.  An element without content, written with a slash at its
    end, gives both events; a processing instruction gives none.  A > in the text has to be
    written as a reference (XML asks for it in ]]>), otherwise U+FFFD is read. *)
Inductive event :=
| Begin (name : str) (attributes : list (str * str))
| End (name : str)
| Char (c : N).

(** The character named by a reference. *)
Definition reference (e : str) : N :=
  if str_eqb e (lit "amp") then 38 else if str_eqb e (lit "lt") then 60 else if str_eqb e (lit "gt") then 62
  else if str_eqb e (lit "quot") then 34 else if str_eqb e (lit "nbsp") then 160 else if str_eqb e (lit "#9") then 9 else if str_eqb e (lit "#09") then 9
  else if str_eqb e (lit "#10") then 10 else if str_eqb e (lit "#13") then 13 else 65533.

(** The value written in an attribute; [e] is the beginning of a reference. *)
Fixpoint attribute_value (e : option str) (s : str) : str :=
  match s, e with
  | [], _ => []
  | c :: s', Some n => if N.eqb c 59 then reference n :: attribute_value None s' else attribute_value (Some (n ++ [c])) s'
  | c :: s', None => if N.eqb c 38 then attribute_value (Some []) s' else c :: attribute_value None s'
  end.

(** The pieces of a string between occurrences of a character. *)
Fixpoint pieces (sep : N) (s : str) : list str :=
  match s with
  | [] => [[]]
  | c :: s' =>
    if N.eqb c sep then [] :: pieces sep s'
    else match pieces sep s' with
         | p :: ps => (c :: p) :: ps
         | [] => [[c]]
         end
  end.
(** Name, equals sign and value of attributes, from the text of a tag cut at the quotation
    marks. *)
Fixpoint attributes (l : list str) : list (str * str) :=
  match l with
  | name :: value :: l' => (filter (fun c => negb (N.eqb c 32 || N.eqb c 61)) name, attribute_value None value) :: attributes l'
  | _ => []
  end.
(** The text between < and >. *)
Definition tag (s : str) : list event :=
  match s with
  | 47%N :: name => [End name]
  | 63%N :: _ => []
  | _ =>
    let (name, rest) := span (fun c => negb (N.eqb c 32 || N.eqb c 47)) s in
    Begin name (attributes (pieces 34 rest)) ::
    match rev s with 47%N :: _ => [End name] | _ => [] end
  end.

Inductive xml_state := InText | InReference (name : str) | InTag (text : str).
Fixpoint xml_reader (st : xml_state) (s : str) : list event :=
  match s with
  | [] => []
  | c :: s' =>
    match st with
    | InText =>
      if N.eqb c 60 then xml_reader (InTag []) s'
      else if N.eqb c 38 then xml_reader (InReference []) s'
      else (if N.eqb c 62 then Char 65533 else Char c) :: xml_reader InText s'
    | InReference n =>
      if N.eqb c 59 then Char (reference n) :: xml_reader InText s' else xml_reader (InReference (n ++ [c])) s'
    | InTag t =>
      if N.eqb c 62 then tag t ++ xml_reader InText s' else xml_reader (InTag (t ++ [c])) s'
    end
  end.
Definition xml_events (s : str) : list event := xml_reader InText s.

Definition element (name : str) (atts : list (str * str)) (content : list event) : list event :=
  Begin name atts :: content ++ [End name].
Definition chars (s : str) : list event := map Char s.

(** ** The XML export: one app element for each column, one rdg element for each reading. *)
Definition xml_document (columns : list (list (str * str))) : list event :=
  element (lit "root") []
    (flat_map (fun rs => element (lit "app") []
       (flat_map (fun r => element (lit "rdg") [(lit "wit", lit "#" ++ fst r)] (chars (snd r))) rs)) columns).

(** ** The TEI export *)
(** [k] is [s] without the white space around it. *)
Definition stripped (cc : cclass) (s k : str) : Prop :=
  exists a b, s = a ++ k ++ b /\ Forall (fun c => iss cc c = true) a /\ Forall (fun c => iss cc c = true) b /\
    (forall c k', k = c :: k' -> iss cc c = false) /\ (forall c k', k = k' ++ [c] -> iss cc c = false).
(** What is written for a column: a text, or readings with the sigla of their witnesses;
    and whether a blank follows. *)
Inductive tei_part := Agreed (text : str) | Variants (rdgs : list (str * list str)).
Definition tei_part_events (p : tei_part * bool) : list event :=
  match fst p with
  | Agreed s => chars s
  | Variants rs => element (lit "app") []
      (flat_map (fun r => element (lit "rdg") [(lit "wit", str_join (lit " ") (map (fun s => lit "#" ++ s) (snd r)))] (chars (fst r))) rs)
  end ++ if snd p then chars (lit " ") else [].
Definition tei_document (parts : list (tei_part * bool)) : list event :=
  element (lit "cx:apparatus")
    [(lit "xmlns:cx", lit "http://interedition.eu/collatex/ns/1.0"); (lit "xmlns", lit "http://www.tei-c.org/ns/1.0")]
    (flat_map tei_part_events parts).

(** The part is right for a column with the readings [rs] (pairs of siglum and text), when
    the table has the witnesses [wits]. *)
Definition part_right (cc : cclass) (wits : list str) (rs : list (str * str)) (p : tei_part) : Prop :=
  match p with
  | Agreed k => forall sg, In sg wits -> exists s, In (sg, s) rs /\ stripped cc s k
  | Variants gs =>
    ~ (exists k, forall sg, In sg wits -> exists s, In (sg, s) rs /\ stripped cc s k) /\
    NoDup (map fst gs) /\ NoDup (flat_map snd gs) /\
    (forall k sgs, In (k, sgs) gs -> sgs <> []) /\
    (forall sg k, (exists sgs, In (k, sgs) gs /\ In sg sgs) <-> exists s, In (sg, s) rs /\ stripped cc s k)
  end.
Definition ends_with (s suf : str) : Prop := exists a, s = a ++ suf.

(** Events without the given characters. *)
Definition without_chars (l : list N) (ev : list event) : list event :=
  filter (fun e => match e with Char c => negb (existsb (N.eqb c) l) | _ => true end) ev.

(** The same call with or without layout="vertical". *)
Definition set_vertical (o : options) (b : bool) : options :=
  {| o_output := o_output o; o_vertical := b; o_segmentation := o_segmentation o; o_near := o_near o;
     o_astar := o_astar o; o_transp := o_transp o; o_filter := o_filter o; o_indent := o_indent o |}.

(** ** JSON *)
(** The object with a table, given as a list of lists, and the witnesses. *)
Definition json_result (table : list (list jval)) (wits : list str) : jval :=
  JObj [(lit "table", JArr (map JArr table)); (lit "witnesses", JArr (map JStr wits))].
Definition entry {A} (table : list (list A)) (i j : nat) : option A :=
  match nth_error table i with Some l => nth_error l j | None => None end.
(** The tokens in a row or column of the JSON table: its entries are null or arrays. *)
Definition json_tokens (l : list jval) : list jval := flat_map (fun x => match x with JArr ts => ts | _ => [] end) l.
(** An entry of the JSON table says what a cell of the table says: null if the witness has
    no token there, and the data of the tokens otherwise. *)
Definition json_entry (c : cell) (x : jval) : Prop :=
  match c with
  | None => x = JNull
  | Some ts => ts <> [] /\ x = JArr (map (fun t => JObj (tk_data t)) ts)
  end.
(** A token of the user with the entries added by collatex. *)
Definition json_token (sg : str) (t : tok0) (pos : nat) : jval :=
  JObj (t0_data t ++ [(lit "_sigil", JStr sg); (lit "_token_array_position", JNum (Z.of_nat pos))]).
