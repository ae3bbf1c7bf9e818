(** Specifications for running and stepping through a simulation. *)
From Verif Require Import Base Chunks DecMem Buffers Productions ProdSpec Sim Run.
Local Open Scope list_scope.

(** What a user does with a simulation: calls of run() and step() that return.  The second component: the
    event that step() showed last. *)
Inductive session (O : oracle) (t : Z) (s : st) (env : option gen) : sim -> option event -> Prop :=
| session_start : session O t s env (sim_init t s env) None
| session_run u S l S' : session O t s env S l -> run O u S (S', Returns) -> session O t s env S' l
| session_step S l S' l' : session O t s env S l -> step_ O l S (S', l', Returns) -> session O t s env S' l'.

(** The events of [l], where an event is left out if it is the same as the one before it; [a]: the event before [l]. *)
Inductive squashed : option event -> list event -> list event -> Prop :=
| squashed_nil a : squashed a [] []
| squashed_same e l l' : squashed (Some e) l l' -> squashed (Some e) (e :: l) l'
| squashed_new a e l l' : a <> Some e -> squashed (Some e) l l' -> squashed a (e :: l) (e :: l').
