(** C85-C87: running a simulation for some time, in pieces, and stepping through it. *)
From Verif Require Import Base BaseFacts Chunks DecMem Buffers Productions ProdSpec Sim CompileWitness Run RunSpec RunFacts RunWitness.
Local Open Scope string_scope.
Local Open Scope list_scope.

(** C85: running up to a time and then up to a later one is the same as running up to the later one.  It is not when
    the simulation had come to its end: every call compiles the last two rules again. *)
Theorem C85_refuted : ~ (forall O t s env S l u1 u2 S1, session O t s env S l -> (u1 < u2)%Z -> run O u1 S (S1, Returns) ->
  forall r, run O u2 S1 r <-> run O u2 S r).
Proof. exact pieces_refuted. Qed.
Print Assumptions C85_refuted.
(** Any number of calls of run() and step() before; compilation is switched off, or something is left to do. *)
Theorem C85_pieces_partial : forall O t s env S l u1 u2 S1, session O t s env S l -> (u1 < u2)%Z -> run O u1 S (S1, Returns) ->
  heap S1 <> [] \/ qcompile (sp (ss S1)) = false -> forall r, run O u2 S1 r <-> run O u2 S r.
Proof. exact session_pieces. Qed.
Print Assumptions C85_pieces_partial.
Example C85_pieces_used : run cw_oracle 700 (rw_run 500 (rw_init true)) (rw_run 700 (rw_init true), Returns) /\ map ewhat (trace_of (rw_run 500 (rw_init true))) = [WConflict; WSelected "one"].
Proof. exact pieces_used. Qed.
(** There is one way to run. *)
Theorem C85_unique : forall O u S r1 r2, run O u S r1 -> run O u S r2 -> r1 = r2.
Proof. exact run_fun. Qed.
Print Assumptions C85_unique.
(** An exception during a run ends a longer run in the same state. *)
Theorem C85_exception : forall O u1 u2 S S1 t, (now S < u1 <= u2)%Z -> run O u1 S (S1, Raises t) -> dead S1 = Some t -> run O u2 S (S1, Raises t).
Proof. exact run_fails'. Qed.
Print Assumptions C85_exception.
Example C85_exception_used : exists S1, run cw_oracle 20000 (cw_init failed_rules cw_goal) (S1, Raises (TExn EType)) /\ dead S1 = Some (TExn EType).
Proof. exact exception_used. Qed.
(** When nothing is left to do and compilation is switched off, only the clock moves. *)
Theorem C85_idle : forall O t s env S l u, session O t s env S l -> heap S = [] -> qcompile (sp (ss S)) = false -> (now S < u)%Z -> run O u S (set_now u S, Returns).
Proof. exact session_idle. Qed.
Print Assumptions C85_idle.
Example C85_idle_used : session cw_oracle 0 (rw_state false) None (rw_run 10000 (rw_init false)) None /\ heap (rw_run 10000 (rw_init false)) = [] /\
  now (rw_run 10000 (rw_init false)) = 10000%Z /\ List.length (trace_of (rw_run 10000 (rw_init false))) = 14%nat.
Proof. exact idle_used. Qed.

(** C86: run(u) carries out what is scheduled before [u], and nothing that is scheduled for [u] or later; then
    the clock shows [u].  If [u] is not after the present, there is a ValueError and nothing happens. *)
Theorem C86_run : forall O t s env S l u S' c, session O t s env S l -> run O u S (S', c) ->
  ((u <= now S)%Z /\ S' = S /\ c = Raises (TExn EValue)) \/
  ((now S < u)%Z /\ (exists new, log S' = log S ++ new /\ Forall (fun te => (now S <= fst te < u)%Z /\ fst te = etime (snd te)) new) /\
   (c = Returns -> show_time S' = u /\ forall q, In q (heap S') -> (u <= qtime q)%Z)).
Proof. exact session_run_spec. Qed.
Print Assumptions C86_run.
Example C86_run_used : run cw_oracle 500 (rw_init true) (rw_run 500 (rw_init true), Returns) /\ run cw_oracle 501 (rw_run 500 (rw_init true)) (rw_run 501 (rw_run 500 (rw_init true)), Returns) /\
  run cw_oracle 500 (rw_run 500 (rw_init true)) (rw_run 500 (rw_init true), Raises (TExn EValue)) /\
  List.length (trace_of (rw_run 500 (rw_init true))) = 2%nat /\ List.length (trace_of (rw_run 501 (rw_run 500 (rw_init true)))) = 6%nat.
Proof. exact run_used. Qed.

(** C87: every step() shows the next event of the trace that differs from the one before, and returns.  It does not: at the end of the simulation
    it raises simpy's EmptySchedule, and after run() it shows an event that has been shown by run(). *)
Theorem C87_refuted :
  ~ (forall O t s env S l r, session O t s env S l -> step_ O l S r -> snd r <> EmptySchedule) /\
  ~ (forall O t s env S l S' l', session O t s env S l -> step_ O l S (S', l', Returns) -> trace_of S' <> trace_of S).
Proof. exact step_refuted. Qed.
Print Assumptions C87_refuted.
(** From the beginning, [n] calls of step() show the first [n] events of the trace, without immediate repetitions; if the simulation ends before, all of them. *)
Theorem C87_steps_partial : forall O t s env n es S l c, steps_ O n None (sim_init t s env) es (S, l, c) ->
  match c with
  | Returns => squashed None (trace_of S) es /\ List.length es = n
  | EmptySchedule => squashed None (trace_of S) es /\ (List.length es < n)%nat /\ heap S = []
  | Raises _ => exists tr tr', trace_of S = tr ++ tr' /\ squashed None tr es /\ (List.length es < n)%nat
  end.
Proof. exact steps_from_start. Qed.
Print Assumptions C87_steps_partial.
Example C87_steps_used :
  (let '(es, (x, l, c)) := rw_steps 3 None (rw_init true) in steps_ cw_oracle 3 None (rw_init true) es (x, l, c) /\ c = Returns /\ map ewhat es = [WConflict; WSelected "one"; WFired "one"]) /\
  (let '(es, (x, l, c)) := rw_steps 99 None (rw_init true) in steps_ cw_oracle 99 None (rw_init true) es (x, l, c) /\ c = EmptySchedule /\ List.length es = 15%nat).
Proof. exact steps_used. Qed.
(** Later on, if the last event was shown. *)
Theorem C87_step_partial : forall O t s env S l S' l' c, session O t s env S l -> current_event S = l -> step_ O l S (S', l', c) ->
  exists new, trace_of S' = trace_of S ++ new /\
    match c with
    | Returns => exists e, l' = Some e /\ squashed l new [e] /\ current_event S' = l'
    | EmptySchedule => l' = l /\ squashed l new [] /\ heap S' = []
    | Raises _ => l' = l
    end.
Proof. exact session_step_spec. Qed.
Print Assumptions C87_step_partial.
Example C87_step_used : match rw_step None (rw_init true) with
  | (x, l, Returns) => session cw_oracle 0 (rw_state true) None x l /\ current_event x = l /\ l <> None
  | _ => False
  end.
Proof. exact step_used. Qed.
