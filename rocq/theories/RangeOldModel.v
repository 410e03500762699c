(** ClusterShell/RangeSet.py: unpickling the states of older versions. *)
From Verif Require Import Py TokenModel RangeSetModel.
Open Scope list_scope.
Open Scope Z_scope.

(** The entries of [_ranges] in old states: [(start, last, step, pad)], [(slice(start, stop, step), pad)]
    and [((start, stop, step), pad)].  Simplified: all are tuples of integers, of one of these shapes. RangeSet.py:254-267. *)
Inductive old_range :=
| Quad (start last step pad : Z)
| Sliced (start stop step pad : Z)
| Triple (start stop step pad : Z).

(** A RangeSet object: its elements, and the attributes that it may have or not ([None]: no such
    attribute; [Some None]: the attribute is None). RangeSet.py:242-251. *)
Record rs_obj := {
  ob_elems : list Z;
  ob_padding : option (option Z);
  ob_autostep : option (option Z);
  ob_version : option Z;
  ob_ranges : option (list old_range);
  ob_length : option Z
}.
(** The dictionary given to [__setstate__]: the entries it may have or not. RangeSet.py:249-251. *)
Record rs_state := {
  os_padding : option (option Z);
  os_autostep : option (option Z);
  os_version : option Z;
  os_ranges : option (list old_range);
  os_length : option Z
}.

(** RangeSet.py:251  [self.__dict__.update(dic)]. *)
Definition newer {A} (new old : option A) : option A := match new with Some x => Some x | None => old end.
(** RangeSet.py:251 self.__dict__.update(dic). *)
Definition dict_update (o : rs_obj) (d : rs_state) : rs_obj :=
  {| ob_elems := ob_elems o;
     ob_padding := newer (os_padding d) (ob_padding o);
     ob_autostep := newer (os_autostep d) (ob_autostep o);
     ob_version := newer (os_version d) (ob_version o);
     ob_ranges := newer (os_ranges d) (ob_ranges o);
     ob_length := newer (os_length d) (ob_length o) |}.
(** [getattr(self, '_version', 0)] RangeSet.py:252, 254. *)
Definition version_of (o : rs_obj) : Z := match ob_version o with Some v => v | None => 0 end.

(** RangeSet.py:254-264  [_ranges] as a list of slices with paddings; a tuple of another length raises
    ValueError, a slice that is unpacked TypeError. *)
Definition converted (o : rs_obj) : res (list old_range) :=
  match ob_ranges o with
  | None => Raise AttributeError
  | Some l =>
    if version_of o <=? 1 then
      mapM (fun r => match r with Quad a b s p => Ok (Sliced a (b + 1) s p) | _ => Raise ValueError end) l
    else match l with
         | [] => Ok []
         | Sliced _ _ _ _ :: _ => Ok l
         | _ => mapM (fun r => match r with
                               | Triple a b s p => Ok (Sliced a b s p)
                               | Sliced _ _ _ _ => Raise TypeError
                               | Quad _ _ _ _ => Raise ValueError
                               end) l
         end
  end.

(** RangeSet.py:457-470  add_range on an object that may have no attribute padding. *)
Definition obj_add_range (o : rs_obj) (start stop step pad : Z) : res rs_obj :=
  r <- add_range {| rs_elems := ob_elems o; rs_pad := match ob_padding o with Some p => p | None => None end; rs_step := None |} start stop step pad ;;
  match ob_padding o with
  | None => if 0 <? pad then Raise AttributeError
            else Ok {| ob_elems := rs_elems r; ob_padding := None; ob_autostep := ob_autostep o; ob_version := ob_version o; ob_ranges := ob_ranges o; ob_length := ob_length o |}
  | Some _ => Ok {| ob_elems := rs_elems r; ob_padding := Some (rs_pad r); ob_autostep := ob_autostep o; ob_version := ob_version o; ob_ranges := ob_ranges o; ob_length := ob_length o |}
  end.

(** RangeSet.py:265-267  [for sli, pad in ...: self.add_range(sli.start, sli.stop, sli.step, pad)]. *)
Definition add_old (o : rs_obj) (r : old_range) : res rs_obj :=
  match r with
  | Sliced a b s p => obj_add_range o a b s p
  | Triple _ _ _ _ => Raise AttributeError
  | Quad _ _ _ _ => Raise ValueError
  end.

(** RangeSet.py:249-269  __setstate__. *)
Definition setstate (o : rs_obj) (d : rs_state) : res rs_obj :=
  let o := dict_update o d in
  if version_of o <? 3 then
    l <- converted o ;;
    o' <- foldM add_old l o ;;
    match ob_length o' with
    | None => Raise AttributeError
    | Some _ => Ok {| ob_elems := ob_elems o'; ob_padding := ob_padding o'; ob_autostep := ob_autostep o'; ob_version := ob_version o'; ob_ranges := None; ob_length := None |}
    end
  else Ok o.
