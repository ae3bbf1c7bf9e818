(** Property theorems about what waits for its time: C63, guarded, and C101.

    Full statement: a retrieval that has been requested is completed unless a later request to the same buffer
    replaces it.  It is refuted in Props_Sim.v: strict harvesting and settings of the buffer cancel a retrieval, too.
    What is proved here is the statement with everything that concerns the buffer in place of later requests
    ([requested]: requests, settings, clearings, strict harvesting, automatic vision), for requests of all kinds and
    with environments; missing is that nothing else than a newer request cancels a retrieval, which is false.  The state
    [S] is one between two events of the queue ([todo S = nil]) in which no interruption is under way. *)
From Verif Require Import Base Chunks DecMem Buffers Productions Sim SimSpec StoryFacts SimWitness KeepSpec KeepFacts KeepRuns KeepWitness.
Local Open Scope string_scope.

(** As long as nothing else concerns the buffer, the request goes on at its time, and writes its event to the trace, or
    its time has not come; the simulation does not end before it has come. *)
Theorem C63_completed_partial : forall O t s env S S' n p e k, (forall g, env = Some g -> outside g) -> sim_runs O (sim_init t s env) S -> todo S = nil ->
  in_progress n p e k S -> ~ interrupted n p S -> sim_runs O S S' -> (forall X, sim_runs O S X -> sim_runs O X S' -> ~ requested n X) ->
  (exists new, log S' = (log S ++ new)%list /\ In (etime e, e) new) \/
  (in_progress n p e k S' /\ (now S' <= etime e)%Z /\ (dead S' = None -> sim_step O S' <> None)).
Proof. exact request_done. Qed.
Print Assumptions C63_completed_partial.

(** And whenever its process goes on - then and later - it goes on as its generator says, not with an exception. *)
Theorem C63_undisturbed_partial : forall O t s env S S' n p e k o l, (forall g, env = Some g -> outside g) -> sim_runs O (sim_init t s env) S -> todo S = nil ->
  in_progress n p e k S -> ~ interrupted n p S -> sim_runs O S S' -> (forall X, sim_runs O S X -> sim_runs O X S' -> ~ requested n X) ->
  todo S' = (WRun p o :: l)%list -> exists v, o = Good v.
Proof. exact request_undisturbed. Qed.
Print Assumptions C63_undisturbed_partial.

(** A retrieval takes from 50 to 250 ms; another rule fires at 100 ms. *)
Example C63_used : exists e k,
  sim_runs vx_oracle kx_init kx_begin /\ todo kx_begin = nil /\ now kx_begin = 500%Z /\ in_progress "retrieval" 4 e k kx_begin /\ etime e = 2500%Z /\
  ~ interrupted "retrieval" 4 kx_begin /\ sim_runs vx_oracle kx_begin kx_end /\ (forall X, sim_runs vx_oracle kx_begin X -> sim_runs vx_oracle X kx_end -> ~ requested "retrieval" X) /\
  In (1000%Z, "PROCEDURAL", WFired "two") (trace kx_end) /\ In (2500%Z, "retrieval", WText "RETRIEVED") (trace kx_end).
Proof. exact keep_used. Qed.

(** ** C101 *)

(** The clock never passes the time that a process - a request, a rule, a screen - waits for. *)
Theorem C101_never_late : forall O t s env S p e, (forall g, env = Some g -> outside g) -> sim_runs O (sim_init t s env) S -> waits_for p e S -> (now S <= etime e)%Z.
Proof. exact never_late. Qed.
Print Assumptions C101_never_late.

(** A simulation that ends without an exception leaves nobody waiting. *)
Theorem C101_nobody_left : forall O t s env S p e, (forall g, env = Some g -> outside g) -> sim_runs O (sim_init t s env) S ->
  sim_step O S = None -> dead S = None -> ~ waits_for p e S.
Proof. exact never_left. Qed.
Print Assumptions C101_nobody_left.

(** What is waited for is written to the trace with its time, unless the process gets an exception (it is interrupted). *)
Theorem C101_logged_or_interrupted : forall O t s env S S' p e, sim_runs O (sim_init t s env) S -> sim_runs O S S' -> waits_for p e S ->
  waits_for p e S' \/ (exists new, log S' = (log S ++ new)%list /\ In (etime e, e) new) \/ exists X, sim_runs O S X /\ sim_runs O X S' /\ thrown_at p X.
Proof. exact fate. Qed.
Print Assumptions C101_logged_or_interrupted.

(** The retrieval of C63_used, which is waiting at 50 ms and has been logged at the end. *)
Example C101_used : exists e, sim_runs vx_oracle kx_init kx_begin /\ waits_for 4 e kx_begin /\ etime e = 2500%Z /\ sim_runs vx_oracle kx_begin kx_end /\
  sim_step vx_oracle kx_end = None /\ dead kx_end = None.
Proof. exact waits_used. Qed.
