(** Property theorems about the ways of driving a simulation: C115. *)
From Verif Require Import Base BaseFacts Chunks DecMem Buffers Productions ProdSpec Sim SimSpec Compile CompileSpec CompileFacts CompileWitness Run RunSpec RunFacts RunWitness RulesSpec DriveFacts DriveWitness.
Local Open Scope string_scope.
Local Open Scope list_scope.

(** However run() and step() are called, and also if the last call raises an exception: of two traces one continues the other. *)
Theorem C115_one_story : forall O tie t s env S1 S2, compiles_with O tie -> left_by O t s env S1 -> left_by O t s env S2 ->
  exists new, log S2 = log S1 ++ new \/ log S1 = log S2 ++ new.
Proof. exact one_story. Qed.
Print Assumptions C115_one_story.

(** After any calls of run() and step(), run(u) comes to the same trace, buffers, memories and states of modules, and without
    production compilation to the same rules.  (With it see C85_refuted.) *)
Theorem C115_same_clock : forall O tie t s env, compiles_with O tie -> forall S1 l1 S2 l2 u X1 X2, (forall g, env = Some g -> outside g) ->
  session O t s env S1 l1 -> session O t s env S2 l2 -> run O u S1 (X1, Returns) -> run O u S2 (X2, Returns) ->
  log X1 = log X2 /\ sw (ss X1) = sw (ss X2) /\ smods (ss X1) = smods (ss X2) /\ (qcompile (sp s) = false -> srules (ss X1) = srules (ss X2)).
Proof. exact same_clock. Qed.
Print Assumptions C115_same_clock.

(** If the simulation is ended by an exception, no other way of driving it goes further, and every other way that ends by
    an exception ends in the same state by the same exception. *)
Theorem C115_same_exception : forall O tie t s env S1 S2 f, compiles_with O tie -> left_by O t s env S1 -> left_by O t s env S2 -> dead S1 = Some f ->
  (exists new, log S1 = log S2 ++ new) /\ forall f', dead S2 = Some f' -> S2 = S1.
Proof. exact same_end. Qed.
Print Assumptions C115_same_exception.

(** What is left by the calls is a state of the simulation itself, but for the clock and the rules compiled at the end. *)
Theorem C115_real : forall O tie t s env S, compiles_with O tie -> left_by O t s env S ->
  exists S0, sim_runs O (sim_init t s env) S0 /\ log S = log S0 /\ sw (ss S) = sw (ss S0) /\ smods (ss S) = smods (ss S0) /\ rules_kept (srules (ss S0)) (srules (ss S)) /\
    (qcompile (sp (ss S0)) = false -> srules (ss S) = srules (ss S0)).
Proof. exact left_real. Qed.
Print Assumptions C115_real.

(** A call of step() and then run(), and two calls of run(). *)
Example C115_example : compiles_with cw_oracle (fun _ _ => true) /\ (exists l, session cw_oracle 0 (rw_state true) None way1 l) /\ session cw_oracle 0 (rw_state true) None way2 None /\
  run cw_oracle 700 way1 (rw_run 700 way1, Returns) /\ run cw_oracle 700 way2 (rw_run 700 way2, Returns) /\ log way1 <> log way2 /\ List.length (log way1) <> List.length (log (rw_run 700 way1)).
Proof. exact (conj cw_compiles two_ways). Qed.

(** A retrieval fails and the two rules around it are compiled (C76_refuted). *)
Example C115_exception_example : left_by cw_oracle 0 (cw_state failed_rules cw_goal) None broken /\
  left_by cw_oracle 0 (cw_state failed_rules cw_goal) None (rw_run 400 (cw_init failed_rules cw_goal)) /\
  dead broken = Some (TExn EType) /\ Nat.ltb (List.length (log (rw_run 400 (cw_init failed_rules cw_goal)))) (List.length (log broken)) = true.
Proof. exact two_ends. Qed.
