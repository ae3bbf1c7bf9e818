(** Model of /repo/pyactr/simulation.py:254-296: running and stepping through a simulation, without GUI
    and real time.

    simpy's run(until) is modelled after its documentation: it raises ValueError unless until is after the
    present, and otherwise carries out steps until the next event is not before until; then the
    clock shows until.  (simpy puts an urgent event at this time into the queue; the model does not
    number this event.)  Times are multiples of 0.1 ms, as everywhere in Sim.v.  A simulation that was ended by an
    exception is not run again. *)
From Verif Require Import Base Chunks DecMem Buffers Productions Sim.
Local Open Scope string_scope.

(** simpy's peek(): the time of the next event; None is infinity. *)
Definition peek (S : sim) : option Z := match pop_min (heap S) with Some (q, _) => Some (qtime q) | None => None end.
(** Between two steps of simpy: nothing is left to do of the last one. *)
Definition between (S : sim) : bool := match todo S with [] => true | _ => false end.
Definition reached (u : Z) (S : sim) : bool := (between S && match peek S with Some t => Z.leb u t | None => true end)%bool.

(** The loop in simpy's run. *)
Inductive loop (O : oracle) (u : Z) : sim -> sim -> Prop :=
| loop_dead S t : dead S = Some t -> loop O u S S
| loop_stop S : dead S = None -> reached u S = true -> loop O u S S
| loop_step S S1 S2 : dead S = None -> reached u S = false -> sim_step O S = Some S1 -> loop O u S1 S2 -> loop O u S S2.

(** What a call gives: it returns, or raises an exception of the simulation, or simpy's EmptySchedule. *)
Inductive call := Returns | Raises (t : fault) | EmptySchedule.

(** compile_rules of productions.py:552-562, as it is called at simulation.py:263 and 286.  (self.compile keeps its value.) *)
Definition compile_end (O : oracle) (S : sim) : sim * call :=
  match compile_now O (ss S) with
  | Err e => (S, Raises (TExn e))
  | Ok None => (S, Returns)
  | Ok (Some (n, _, rs)) => (set_ss (set_order (sorder (ss S) ++ [n])%list (set_rules rs (ss S))) S, Returns)
  end.
Definition at_end (O : oracle) (S : sim) : sim * call :=
  match peek S with None => compile_end O S | Some _ => (S, Returns) end.

(** simulation.py:254-263, run(max_time). *)
Inductive run (O : oracle) (u : Z) (S : sim) : sim * call -> Prop :=
| run_late : (u <= now S)%Z -> run O u S (S, Raises (TExn EValue))
| run_raises S1 t : (now S < u)%Z -> loop O u S S1 -> dead S1 = Some t -> run O u S (S1, Raises t)
| run_returns S1 : (now S < u)%Z -> loop O u S S1 -> dead S1 = None -> run O u S (at_end O (set_now u S1)).

(** simulation.py:265-274, show_time. *)
Definition show_time (S : sim) : Z := now S.

(** simulation.py:210-224: current_event is the last event that is not unknown. *)
Definition known (e : event) : bool := match ewhat e with WUnknown => false | _ => true end.
Definition trace_of (S : sim) : list event := filter known (map snd (log S)).
Definition current_event (S : sim) : option event := last (map Some (trace_of S)) None.

(** One step of simpy: it takes an event from the queue and carries out everything that waits for it. *)
Inductive drain (O : oracle) : sim -> sim -> Prop :=
| drain_dead S t : dead S = Some t -> drain O S S
| drain_done S : dead S = None -> todo S = [] -> drain O S S
| drain_step S S1 S2 : dead S = None -> todo S <> [] -> sim_step O S = Some S1 -> drain O S1 S2 -> drain O S S2.
Definition tick (O : oracle) (S S' : sim) : Prop := exists S1, todo S = [] /\ sim_step O S = Some S1 /\ drain O S1 S'.

(** Event is a named tuple: equality of the components. *)
Definition what_eqb (a b : what) : bool :=
  match a, b with
  | WConflict, WConflict | WNoRule, WNoRule | WUnknown, WUnknown => true
  | WSelected x, WSelected y | WFired x, WFired y | WStopped x, WStopped y | WText x, WText y => String.eqb x y
  | WCompiled a x, WCompiled b y => (Bool.eqb a b && String.eqb x y)%bool
  | _, _ => false
  end.
Definition event_eqb (a b : event) : bool := (Z.eqb (etime a) (etime b) && String.eqb (eproc a) (eproc b) && what_eqb (ewhat a) (ewhat b))%bool.
(** simulation.py:282: there is an event to show. *)
Definition news (lst : option event) (S : sim) : option event :=
  match current_event S with
  | None => None
  | Some e => match lst with Some e' => if event_eqb e e' then None else Some e | None => Some e end
  end.

(** simulation.py:276-287, step().  [lst]: self.__last_event. *)
Inductive step_ (O : oracle) (lst : option event) : sim -> sim * option event * call -> Prop :=
| step_empty S : todo S = [] -> dead S = None -> peek S = None -> step_ O lst S (S, lst, EmptySchedule)
| step_raises S S1 t : dead S = None -> tick O S S1 -> dead S1 = Some t -> step_ O lst S (S1, lst, Raises t)
| step_shows S S1 e : dead S = None -> tick O S S1 -> dead S1 = None -> news lst S1 = Some e -> step_ O lst S (S1, Some e, Returns)
| step_compile S S1 S2 t : dead S = None -> tick O S S1 -> dead S1 = None -> news lst S1 = None -> at_end O S1 = (S2, Raises t) ->
    step_ O lst S (S2, lst, Raises t)
| step_more S S1 S2 r : dead S = None -> tick O S S1 -> dead S1 = None -> news lst S1 = None -> at_end O S1 = (S2, Returns) ->
    step_ O lst S2 r -> step_ O lst S r.

(** simulation.py:289-296, steps(count), for a positive count.  The list: the events shown. *)
Inductive steps_ (O : oracle) : nat -> option event -> sim -> list event -> sim * option event * call -> Prop :=
| steps_zero lst S : steps_ O 0 lst S [] (S, lst, Returns)
| steps_one n lst S S1 e es r : step_ O lst S (S1, Some e, Returns) -> steps_ O n (Some e) S1 es r -> steps_ O (Datatypes.S n) lst S (e :: es) r
| steps_fails n lst S S1 l1 c : step_ O lst S (S1, l1, c) -> c <> Returns -> steps_ O (Datatypes.S n) lst S [] (S1, l1, c).
