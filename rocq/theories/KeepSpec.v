(** What can cancel a request that is being carried out. *)
From Verif Require Import Base Chunks DecMem Buffers Productions Sim.
Local Open Scope string_scope.
Local Open Scope list_scope.

(** The buffer that an entry of the list of processes to be started belongs to. *)
Definition proc_name (x : proc) : option string :=
  match x with PProc => None | PReq _ n _ _ _ _ _ | PAuto _ n _ _ _ _ => Some n end.
(** Something that concerns the buffer [n] waits to be started: a request, a setting or a clearing by a rule,
    strict harvesting, or automatic vision. *)
Definition requested (n : string) (S : sim) : Prop :=
  exists x, In x (match early S with Some l => l | None => [] end ++ sprocs (ss S)) /\ proc_name x = Some n.
(** The process [p] or a process that starts the requests to [n] is being interrupted. *)
Definition interrupted (n : string) (p : nat) (S : sim) : Prop :=
  exists ev x l q, nth_error (evs S) ev = Some x /\ ecbs x = Some l /\ In (CInt q) l /\
    (q = p \/ exists r, nth_error (prs S) q = Some r /\ pkind r = Some (GExtra n)).
(** The process [p] carries out a request to the buffer [n]; when the time of [e] has come it will go on, announce [e]
    and continue with [k]. *)
Definition in_progress (n : string) (p : nat) (e : event) (k : gen) (S : sim) : Prop :=
  exists r, nth_error (prs S) p = Some r /\ pcode r = KLocal false n e k.
(** The process [p] - a request, a rule or a screen - waits for the time of [e]. *)
Definition waits_for (p : nat) (e : event) (S : sim) : Prop :=
  exists r, nth_error (prs S) p = Some r /\ ((exists b n k, pcode r = KLocal b n e k) \/ pcode r = KEnvP e).
(** The process [p] is about to get an exception. *)
Definition thrown_at (p : nat) (S : sim) : Prop := exists t l, todo S = WRun p (Bad t) :: l.
