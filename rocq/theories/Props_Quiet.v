(** The end of a simulation.  Every theorem is proved in one of the Quiet files. *)
From Verif Require Import Base Chunks DecMem Buffers Productions ProdSpec ProdWitness Sim SimWitness Compile CompileFacts CompileWitness Run RunSpec SafeSpec QuietEnd QuietWitness.
Local Open Scope string_scope.

(** ** C90 *)

(** Full statement: when a simulation has nothing left to do, no rule matches.  Missing: environments.  Needed: no rule
    makes two requests to one buffer (otherwise the run can be broken off, C62), no rule has the empty name (selecting it
    would count as selecting nothing), and moving the eyes takes time. *)
Theorem C90_no_rule_partial : forall O tie t s S, compiles_with O tie -> one_request s -> plain_names s -> svars s = nobind -> sprocs s = [] -> NoDup (dkeys (snames s)) ->
  slow_eyes O -> all_ranked s -> dget (srules s) "" = None ->
  sim_runs O (sim_init t s None) S -> dead S = None -> todo S = [] -> heap S = [] -> forall n, ~ rule_matches (ss S) n.
Proof. exact (fun O tie t s S CO H1 H2 H3 H4 H5 SE Rk Nn => sim_quiescent O tie t s CO H1 H2 H3 H4 H5 SE Rk Nn S). Qed.
Print Assumptions C90_no_rule_partial.
(** After any calls of run() and step() that have left nothing in the queue.  (These calls compile rules at their end, so a
    rule can have come into being that is not in the model at the beginning.) *)
Theorem C90_calls_partial : forall O tie t s S l, compiles_with O tie -> one_request s -> plain_names s -> svars s = nobind -> sprocs s = [] -> NoDup (dkeys (snames s)) ->
  slow_eyes O -> all_ranked s -> dget (srules s) "" = None ->
  session O t s None S l -> heap S = [] ->
  (forall n, In n (dkeys (srules s)) -> ~ rule_matches (ss S) n) /\ (qcompile (sp (ss S)) = false -> forall n, ~ rule_matches (ss S) n).
Proof. exact (fun O tie t s S l CO H1 H2 H3 H4 H5 SE Rk Nn => session_quiescent O tie t s CO H1 H2 H3 H4 H5 SE Rk Nn S l). Qed.
Print Assumptions C90_calls_partial.
(** Two rules fire, both send the eyes to an object; then the simulation stops. *)
Example C90_used : one_request (vx_state vx_shift) /\ plain_names (vx_state vx_shift) /\ NoDup (dkeys (snames (vx_state vx_shift))) /\ all_ranked (vx_state vx_shift) /\
  dget (srules (vx_state vx_shift)) "" = None /\ slow_eyes cw_oracle /\ compiles_with cw_oracle (fun _ _ => true) /\
  (exists S, sim_runs cw_oracle (vx_init vx_shift) S /\ dead S = None /\ todo S = [] /\ heap S = [] /\ now S = 3500%Z /\
     In (WFired "one") (map (fun e => ewhat (snd e)) (log S)) /\ In (WFired "two") (map (fun e => ewhat (snd e)) (log S))) /\
  exists S, session cw_oracle 0 (vx_state vx_shift) None S None /\ heap S = [] /\ now S = 20000%Z.
Proof. exact quiet_used. Qed.
