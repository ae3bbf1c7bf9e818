(** Modules at the end of a simulation.  Every theorem is proved in one of the Free files. *)
From Verif Require Import Base Chunks DecMem Buffers Productions ProdSpec ProdWitness Sim SimWitness Compile CompileFacts CompileWitness Run RunSpec SafeSpec FreeSpec FreeEnd CommandFacts FreeWitness.
Local Open Scope string_scope.

(** ** C67 *)

(** Full statement: when a simulation has nothing left to do, no module is busy.  False: the command None of the visual
    module is accepted, sets the module busy and does nothing else. *)
Theorem C67_busy_forever_refuted : exists O tie t s S, compiles_with O tie /\ one_request s /\ plain_names s /\ svars s = nobind /\ sprocs s = [] /\ NoDup (dkeys (snames s)) /\ slow_eyes O /\
  (forall i, ~ working i s) /\ sim_runs O (sim_init t s None) S /\ dead S = None /\ todo S = [] /\ heap S = [] /\ exists i, working i (ss S).
Proof. exact busy_forever. Qed.
Print Assumptions C67_busy_forever_refuted.
(** Without such requests to the buffer number [i], its module is free again (or its last request has failed).  Missing:
    environments (automatic_search leaves the module of the visual location busy). *)
Theorem C67_free_again_partial : forall O tie t s i S, compiles_with O tie -> one_request s -> plain_names s -> svars s = nobind -> sprocs s = [] -> NoDup (dkeys (snames s)) -> slow_eyes O ->
  ~ working i s -> sim_runs O (sim_init t s None) S -> dead S = None -> todo S = [] -> heap S = [] ->
  (forall S0, sim_runs O (sim_init t s None) S0 -> sim_runs O S0 S -> ~ idly_asked i (ss S0)) -> ~ working i (ss S).
Proof. exact (fun O tie t s i S CO H1 H2 H3 H4 H5 SE Nw => sim_free O tie t s CO H1 H2 H3 H4 H5 i Nw SE S). Qed.
Print Assumptions C67_free_again_partial.
(** After any calls of run() and step() that have left nothing in the queue. *)
Theorem C67_calls_partial : forall O tie t s i S l, compiles_with O tie -> one_request s -> plain_names s -> svars s = nobind -> sprocs s = [] -> NoDup (dkeys (snames s)) -> slow_eyes O ->
  ~ working i s -> session O t s None S l -> heap S = [] ->
  (forall S0, sim_runs O (sim_init t s None) S0 -> ~ idly_asked i (ss S0)) -> ~ working i (ss S).
Proof. exact (fun O tie t s i S l CO H1 H2 H3 H4 H5 SE Nw => session_free O tie t s CO H1 H2 H3 H4 H5 i Nw SE S l). Qed.
Print Assumptions C67_calls_partial.
(** The same from what the rules say: every request with a slot cmd names its command.  Variables in that slot and the
    command None are not covered; environments are missing. *)
Theorem C67_commands_partial : forall O tie t s i S, compiles_with O tie -> one_request s -> plain_names s -> svars s = nobind -> sprocs s = [] -> NoDup (dkeys (snames s)) -> slow_eyes O ->
  ~ working i s -> commanded i s -> sim_runs O (sim_init t s None) S -> dead S = None -> todo S = [] -> heap S = [] -> ~ working i (ss S).
Proof. exact commands_free. Qed.
Print Assumptions C67_commands_partial.
Theorem C67_commands_calls_partial : forall O tie t s i S l, compiles_with O tie -> one_request s -> plain_names s -> svars s = nobind -> sprocs s = [] -> NoDup (dkeys (snames s)) -> slow_eyes O ->
  ~ working i s -> commanded i s -> session O t s None S l -> heap S = [] -> ~ working i (ss S).
Proof. exact commands_session_free. Qed.
Print Assumptions C67_commands_calls_partial.
Example C67_commands_used : commanded 2 (vx_state vx_shift) /\ exists r ru n c o v, dget (srules (vx_state vx_shift)) r = Some ru /\ dget (snames (vx_state vx_shift)) n = Some 2%nat /\ In (String "+" n, c) (rrhs ru) /\ c = CChunk o /\ In ("cmd", v) (cslots o).
Proof. exact shift_commanded. Qed.
(** Attention is shifted twice.  The second shift interrupts the first one; in between, the module is busy. *)
Example C67_used : one_request (vx_state vx_shift) /\ plain_names (vx_state vx_shift) /\ NoDup (dkeys (snames (vx_state vx_shift))) /\ slow_eyes cw_oracle /\ compiles_with cw_oracle (fun _ _ => true) /\
  ~ working 2 (vx_state vx_shift) /\
  (forall S0, sim_runs cw_oracle (vx_init vx_shift) S0 -> ~ idly_asked 2 (ss S0)) /\
  (exists S, sim_runs cw_oracle (vx_init vx_shift) S /\ working 2 (ss S) /\ now S = 500%Z) /\
  (exists S, sim_runs cw_oracle (vx_init vx_shift) S /\ dead S = None /\ todo S = [] /\ heap S = [] /\ now S = 3500%Z) /\
  exists S, session cw_oracle 0 (vx_state vx_shift) None S None /\ heap S = [] /\ now S = 20000%Z.
Proof. exact free_used. Qed.
