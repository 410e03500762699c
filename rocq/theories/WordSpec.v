(** Specification vocabulary: texts with other words (C68). *)
From Verif Require Import Py TokenModel SuffixModel IndexModel GraphModel AlignModel TableModel CollateModel ParamSpec.
Open Scope list_scope.

(** The same witnesses with as many tokens, in which the same tokens are equal: two tokens of [c'] have
    the same string exactly if the tokens of [c] at their places do.  Think of a text in which every word
    is replaced by another one, throughout. *)
Definition same_pattern (c c' : collation) : Prop :=
  Forall2 (fun w w' => w_sigil w' = w_sigil w /\ length (w_toks w') = length (w_toks w)) c c' /\
  forall a a' b b', In (a, a') (counterparts c c') -> In (b, b') (counterparts c c') ->
    (t0_str a' = t0_str b' <-> t0_str a = t0_str b).

(** The tokens of a cell stand at the same places of the witnesses. *)
Definition same_places (x y : cell) : Prop :=
  match x, y with
  | None, None => True
  | Some l, Some l' => map tk_pos l' = map tk_pos l
  | _, _ => False
  end.

(** Two tables with the same sigla, the same columns, the same status of the columns, and in every
    cell the tokens at the same places. *)
Definition same_layout (t t' : table) : Prop :=
  map c_variant (t_columns t') = map c_variant (t_columns t) /\
  Forall2 (fun r r' => r_header r' = r_header r /\ Forall2 same_places (r_cells r) (r_cells r')) (t_rows t) (t_rows t').
