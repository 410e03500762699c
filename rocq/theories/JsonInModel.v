(** Model of Collation.create_from_json (collatex/core_classes.py:31-36).  json.load is the reader of
    JsonSpec (objects, arrays, strings, integers and the three names) followed by the making of
    Python dictionaries; other numbers are not modelled. *)
From Verif Require Import Py TokenModel JsonSpec.
Open Scope list_scope.

(** json/decoder.py: the pairs of an object become a dict, [dict(pairs)]: of two pairs with the same
    name the last one counts. *)
Fixpoint python_value (v : jval) : jval :=
  match v with
  | JArr l => JArr (map python_value l)
  | JObj d => JObj (fold_left (fun acc m => dset str_eqb (fst m) (snd m) acc) (map (fun m => (fst m, python_value (snd m))) d) [])
  | _ => v
  end.

(** What may be handed to create_from_json: an open file (anything with a read method) and its
    content, or a str. core_classes.py:32-34. *)
Inductive json_source := JsonFile (content : str) | JsonString (s : str).

(** json/__init__.py:274-293  json.load: [loads(fp.read())].  A str has no read method:
    AttributeError.  JSONDecodeError is a ValueError. *)
Definition json_load (src : json_source) : res jval :=
  match src with
  | JsonString _ => Raise AttributeError
  | JsonFile s => match json_read s with Some v => Ok (python_value v) | None => Raise ValueError end
  end.

(** core_classes.py:31-36.  [data["witnesses"]] raises TypeError when data is not a dictionary. *)
Definition create_from_json (cc : cclass) (src : json_source) : res collation :=
  v <- json_load src ;; d <- as_dict v ;; create_from_dict cc d None.
