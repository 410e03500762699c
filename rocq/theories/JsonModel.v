(** Model of the text of the JSON exports: json.dumps as called in collatex/core_functions.py:106
    and 122 ([sort_keys=True, indent=indent, ensure_ascii=False]); the standard library's encoder is
    modelled after CPython 3.11 (json/encoder.py). *)
From Verif Require Import Py TokenModel SuffixModel IndexModel GraphModel TableModel ExportModel.
Open Scope list_scope.

(** json/encoder.py:18-33, 40-47  py_encode_basestring: the control characters, the quotation mark
    and the reverse solidus are escaped. *)
Definition hex_digit (n : N) : N := if (n <? 10)%N then (48 + n)%N else (87 + n)%N.
(** json/encoder.py:18-33: one character. *)
Definition json_char (c : N) : str :=
  if (c =? 34)%N then [92; 34]%N
  else if (c =? 92)%N then [92; 92]%N
  else if (c =? 10)%N then [92; 110]%N
  else if (c =? 13)%N then [92; 114]%N
  else if (c =? 9)%N then [92; 116]%N
  else if (c =? 12)%N then [92; 102]%N
  else if (c =? 8)%N then [92; 98]%N
  else if (c <? 32)%N then [92; 117; 48; 48; hex_digit (c / 16); hex_digit (c mod 16)]%N
  else [c].
(** json/encoder.py:40-47: a string between quotation marks. *)
Definition json_string (s : str) : str := [34%N] ++ flat_map json_char s ++ [34%N].

(** int.__repr__ Used by json.dumps, core_functions.py:106, 122. *)
Definition json_int (z : Z) : str :=
  if (z <? 0)%Z then 45%N :: uint_chars (N.to_uint (Z.abs_N z)) else uint_chars (N.to_uint (Z.abs_N z)).

(** json/encoder.py:260-429  _make_iterencode: [indent] is None or a number of blanks.  Simplification:
    strings as indent and floating point numbers are not modelled. *)
Definition json_newline (indent : option nat) (level : nat) : str :=
  match indent with None => [] | Some k => 10%N :: repeat 32%N (k * level) end.
(** json/encoder.py:260-429: the separator of items. *)
Definition json_comma (indent : option nat) (level : nat) : str :=
  match indent with None => lit ", " | Some _ => lit "," ++ json_newline indent level end.

(** json/encoder.py:260-429, as called at core_functions.py:106, 122. *)
Fixpoint json_dumps (indent : option nat) (level : nat) (v : jval) : str :=
  match v with
  | JNull => lit "null"
  | JBool true => lit "true"
  | JBool false => lit "false"
  | JNum z => json_int z
  | JStr s => json_string s
  | JArr [] => lit "[]"
  | JArr l => lit "[" ++ json_newline indent (S level) ++
              str_join (json_comma indent (S level)) (map (json_dumps indent (S level)) l) ++
              json_newline indent level ++ lit "]"
  | JObj [] => lit "{}"
  | JObj d => lit "{" ++ json_newline indent (S level) ++
              str_join (json_comma indent (S level))
                (map (fun m => json_string (fst m) ++ lit ": " ++ snd m)
                     (sort_items (map (fun m => (fst m, json_dumps indent (S level) (snd m))) d))) ++
              json_newline indent level ++ lit "}"
  end.

(** core_functions.py:109-122 and 92-106 with all their arguments: the text returned. *)
Definition json_text (indent : option nat) (status : bool) (t : table) : str :=
  json_dumps indent 0 (export_json status t).
(** core_functions.py:106. *)
Definition vertical_json_text (indent : option nat) (t : table) (sigla : list str) : str :=
  json_dumps indent 0 (export_vertical_json t sigla).
