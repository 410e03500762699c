(** What an XML parser reports (C53): before anything else CR LF and CR are read as LF, and in
    the value of an attribute a tab or a line feed is read as a blank, unless it is written as
    a reference (XML 1.0, sections 2.11 and 3.3.3). *)
From Verif Require Import Py TokenModel IndexModel GraphModel TableModel CollateModel ExportSpec.
Open Scope list_scope.
Open Scope nat_scope.

Definition blank (c : N) : N := if N.eqb c 9 || N.eqb c 10 then 32%N else c.
(** Tabs and line feeds inside of tags become blanks. *)
Fixpoint blanks_in_tags (inside : bool) (s : str) : str :=
  match s with
  | [] => []
  | c :: s' => (if inside then blank c else c) ::
               blanks_in_tags (if N.eqb c 60 then true else if N.eqb c 62 then false else inside) s'
  end.
Definition xml_parse (s : str) : list event := xml_events (blanks_in_tags false (newlines s)).

(** The events of a document whose line ends are not written as references, as a parser reports
    them; [value] is what becomes of the values of attributes. *)
Definition blanked (v : str) : str := map blank (newlines v).
Fixpoint as_read (value : str -> str) (ev : list event) : list event :=
  match ev with
  | [] => []
  | Char 13 :: Char 10 :: ev' => Char 10 :: as_read value ev'
  | Char 13 :: ev' => Char 10 :: as_read value ev'
  | Begin n atts :: ev' => Begin n (map (fun a => (fst a, value (snd a))) atts) :: as_read value ev'
  | e :: ev' => e :: as_read value ev'
  end.

(** No carriage return in a text, no white space in a siglum. *)
Definition texts_without_cr (c : collation) : Prop :=
  forall w t s, In w c -> In t (w_toks w) -> dget str_eqb (lit "t") (t0_data t) = Some (JStr s) -> ~ In 13%N s.
Definition plain_sigla (c : collation) : Prop :=
  forall w x, In w c -> In x [9%N; 10%N; 13%N; 32%N] -> ~ In x (w_sigil w).
