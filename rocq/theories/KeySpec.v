(** Specifications for key presses in a simulation with an environment. *)
From Verif Require Import Base Chunks Buffers Productions ProdSpec Environment Sim SimSpec.
Local Open Scope string_scope.
Local Open Scope list_scope.
Local Open Scope nat_scope.

(** The process [p], which runs a generator, goes on and is about to announce [e]: the time of [e]
    has come.  This is when the keys that have been pressed are handed to the environment. *)
Definition announces (p : nat) (e : event) (S : sim) : Prop :=
  exists v l r b n k, todo S = WRun p (Good v) :: l /\ nth_error (prs S) p = Some r /\ pcode r = KLocal b n e k.
(** One of the keys that are down is a trigger of the screen. *)
Definition hit (s : st) : Prop := exists k, In k (xtrig (sscreen s)) /\ In (VStr k) (skeys s).
(** A trigger key is handed to the environment. *)
Definition presses (p : nat) (e : event) (S : sim) : Prop := announces p e S /\ hit (ss S).
(** The process [p] has ended with an exception. *)
Definition failed (p : nat) (t : fault) (S : sim) : Prop :=
  exists r e, nth_error (prs S) p = Some r /\ nth_error (evs S) (pown r) = Some e /\ evalue e = Some (Bad t).
(** The process of the environment has ended. *)
Definition env_over (S : sim) : Prop := Forall (fun r => pkind r = Some GEnv -> pcode r = KEnd) (prs S).
(** In the run from [S0] to [S] a trigger key has been handed to the environment before, at the
    very moment of [S]. *)
Definition pressed_now (O : oracle) (S0 S : sim) : Prop :=
  exists S1 S2 p e, sim_runs O S0 S1 /\ sim_step O S1 = Some S2 /\ sim_runs O S2 S /\ presses p e S1 /\ now S1 = now S.
