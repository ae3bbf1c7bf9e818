(** Specification of histories of a declarative memory in which chunks are also removed (C102). *)
From Verif Require Import BaseFacts Chunks ChunkSpec DecMem DecMemFacts Forget.

Inductive dm_op :=
| Did (o : mem_op)
| Del (c : chunk)
| Clear.

(** A removal that raises KeyError changes nothing. *)
Definition dm_step (m : decmem) (o : dm_op) : decmem :=
  match o with
  | Did o => mem_step m o
  | Del c => match dm_del m c with Some m' => m' | None => m end
  | Clear => dm_clear m
  end.
Definition dm_runs (ops : list dm_op) : decmem := fold_left dm_step ops dm_empty.

Definition dm_op_ok (o : dm_op) : Prop := match o with Did o => op_ok o | _ => True end.

(** The strength of association from [j] is asked for. *)
Definition asks (j : value) (o : dm_op) : bool :=
  match o with Did (MStrength k _ _ _) => val_eqb j k | _ => false end.

Definition removes (o : dm_op) : bool := match o with Did _ => false | _ => true end.

(** How many slots that were counted by [f] went away by removals, from the moment on where the
    strength of association from [j] was first asked for. *)
Fixpoint lost (f : decmem -> nat) (j : value) (ops : list dm_op) (m : decmem) (asked : bool) : nat :=
  match ops with
  | [] => 0
  | o :: ops' =>
      (if removes o && asked then f m - f (dm_step m o) else 0)
      + lost f j ops' (dm_step m o) (asked || asks j o)
  end.

(** The slots of memory that hold [j]: all of them, or those of the slot the strength of
    association is restricted to. *)
Definition holding (r : option string) (j : value) (m : decmem) : nat :=
  match r with
  | None | Some ""%string => fan m j
  | Some s => fan_in m s j
  end.
