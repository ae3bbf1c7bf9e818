(** What it means that a history only concerns some buffers and memories. *)
From Verif Require Import Base Chunks DecMem Buffers.

Definition all_in (M : nat -> Prop) (m : option nat) : Prop := match m with Some k => M k | None => True end.
(** The call concerns only buffers in [J] and memories in [M]. *)
Definition within (J M : nat -> Prop) (o : op) : Prop :=
  match o with
  | ONewMem => True
  | OMemAdd m _ _ | OMemCopy m => M m
  | ONew _ m _ _ => all_in M m
  | OAdd i _ _ h _ | OClear i _ h | OCopy i h => J i /\ all_in M h
  | OModify i _ _ _ | OCreate i _ _ | ODiscard i _ | ORetrieve i _ _ _ _ _ _ | OSetFinst i _ | OSetDelay i _ => J i
  | OSetDm i m => J i /\ all_in M m
  end.
(** No buffer refers to a memory that does not exist. *)
Definition rooted (w : world) : Prop := forall b m, In b (bufs w) -> bdm b = Some m -> (m < List.length (mems w))%nat.
(** What a later call can see of a buffer: its class, its content and its settings. *)
Definition same_buffer (b b' : buffer) : Prop :=
  bkind b = bkind b' /\ bdata b = bdata b' /\ bfinst b = bfinst b' /\ brecent b = brecent b' /\ bstims b = bstims b' /\ bdelay b = bdelay b'.
