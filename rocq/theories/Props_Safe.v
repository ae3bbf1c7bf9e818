(** Property theorems about the scheduling of simulations: C62, C88, C89.

    [one_request s]: no rule sends two requests to one buffer.  [scheduling f]: [f] is an exception of the scheduling
    itself, RuntimeError or Interrupt. *)
From Verif Require Import Base Chunks DecMem Buffers Productions ProdSpec ProdWitness Sim SimWitness Compile CompileFacts CompileWitness Run RunSpec RunFacts RunWitness SafeSpec SafeRuns BrokenFacts SafeWitness.
Local Open Scope string_scope.

(** ** C62 *)

(** Full statement: a rule may make several changes to one buffer; this is refuted in Props_Sim.v.  It holds for every other
    combination of actions: if no rule contains both [+g] and [*g] for a buffer [g], no simulation without
    environment ends with an Interrupt or a RuntimeError, whatever the rules do.  Missing: environments. *)
Theorem C62_one_request_partial : forall O tie t s S f, compiles_with O tie -> one_request s -> plain_names s -> svars s = nobind -> sprocs s = [] -> NoDup (dkeys (snames s)) ->
  sim_runs O (sim_init t s None) S -> dead S = Some f -> ~ scheduling f.
Proof. exact (fun O tie t s S f CO H1 H2 H3 H4 H5 => sim_no_scheduling O tie CO t s H1 H2 H3 H4 H5 S f). Qed.
Print Assumptions C62_one_request_partial.
(** A model whose second rule replaces a retrieval in progress: the first process of the buffer is interrupted, and the simulation goes on. *)
Example C62_one_request_used : one_request (vx_state vx_retrieve) /\ plain_names (vx_state vx_retrieve) /\ NoDup (dkeys (snames (vx_state vx_retrieve))) /\
  sim_runs cw_oracle (vx_init vx_retrieve) (to_interrupt cw_oracle 400 (vx_init vx_retrieve)) /\
  interrupted (to_interrupt cw_oracle 400 (vx_init vx_retrieve)) = Some (2%nat, Some (Some (GExtra "retrieval"), false)) /\
  dead (sim_exec cw_oracle 400 (vx_init vx_retrieve)) = None.
Proof. exact one_request_used. Qed.
(** A model whose rule asks for something impossible: the simulation ends with the exception of the module. *)
Example C62_exception_used : one_request (vx_state sx_rules) /\ plain_names (vx_state sx_rules) /\ dead (sim_exec cw_oracle 400 (vx_init sx_rules)) = Some (TExn EActr).
Proof. exact exception_of_module. Qed.

(** ** C88 *)

(** Full statement: run() and step() raise only exceptions of the rules and of the modules, never one of
    the scheduling.  This is false, see C62. *)
Theorem C88_refuted : exists O tie s u S, compiles_with O tie /\ plain_names s /\ svars s = nobind /\ sprocs s = [] /\ NoDup (dkeys (snames s)) /\ run O u (sim_init 0 s None) (S, Raises TInterrupt).
Proof. exact run_interrupted. Qed.
Print Assumptions C88_refuted.
(** Any calls of run() and step() before. *)
Theorem C88_run_partial : forall O tie t s S l u S' f, compiles_with O tie -> one_request s -> plain_names s -> svars s = nobind -> sprocs s = [] -> NoDup (dkeys (snames s)) ->
  session O t s None S l -> run O u S (S', Raises f) -> ~ scheduling f.
Proof. exact (fun O tie t s S l u S' f CO H1 H2 H3 H4 H5 => run_exceptions O tie CO t s H1 H2 H3 H4 H5 S l u S' f). Qed.
Print Assumptions C88_run_partial.
Theorem C88_step_partial : forall O tie t s S l S' l' f, compiles_with O tie -> one_request s -> plain_names s -> svars s = nobind -> sprocs s = [] -> NoDup (dkeys (snames s)) ->
  session O t s None S l -> step_ O l S (S', l', Raises f) -> ~ scheduling f.
Proof. exact (fun O tie t s S l S' l' f CO H1 H2 H3 H4 H5 => step_exceptions O tie CO t s H1 H2 H3 H4 H5 S l S' l' f). Qed.
Print Assumptions C88_step_partial.
Example C88_run_used : exists S1 S2, session cw_oracle 0 (vx_state sx_rules) None S1 None /\ now S1 = 300%Z /\ run cw_oracle 20000 S1 (S2, Raises (TExn EActr)).
Proof. exact run_raises_used. Qed.
Example C88_step_used : exists S1 l S2 l', session cw_oracle 0 (vx_state sx_rules) None S1 l /\ step_ cw_oracle l S1 (S2, l', Raises (TExn EActr)).
Proof. exact step_raises_used. Qed.

(** ** C89 *)

(** [raising O S f]: the code of a process (of the rules or of a buffer) raises [f] in the next step.  [sim_step O S' = None]: the run has come to its end.
    Missing: environments, and rules that send two requests to one buffer. *)
Theorem C89_failure_partial : forall O tie t s S f S', compiles_with O tie -> one_request s -> plain_names s -> svars s = nobind -> sprocs s = [] -> NoDup (dkeys (snames s)) ->
  sim_runs O (sim_init t s None) S -> dead S = None -> raising O S f -> sim_runs O S S' -> sim_step O S' = None -> exists x, dead S' = Some (TExn x).
Proof. exact (fun O tie t s S f S' CO H1 H2 H3 H4 H5 => sim_failure O tie t s CO H1 H2 H3 H4 H5 S f S'). Qed.
Print Assumptions C89_failure_partial.
Example C89_failure_used : exists S, sim_runs cw_oracle (vx_init sx_rules) S /\ raising cw_oracle S (TExn EActr) /\ dead S = None /\ dead (sim_exec cw_oracle 20 S) = Some (TExn EActr).
Proof. exact failure_used. Qed.
