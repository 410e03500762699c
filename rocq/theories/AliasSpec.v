(** Specification vocabulary for token dictionaries given as objects (C56). *)
From Verif Require Import Py TokenModel AliasModel.

(** No dictionary object is given for two tokens. *)
Definition no_sharing (data : list (str * list nat)) : Prop := NoDup (flat_map snd data).

(** The same input with a copy of the contents in the place of every reference. *)
Definition copied (h : heap) (data : list (str * list nat)) : jdict :=
  [(lit "witnesses", JArr (map (fun w => JObj [(lit "id", JStr (fst w)); (lit "tokens", JArr (map (fun r => JObj (h r)) (snd w)))]) data))].
