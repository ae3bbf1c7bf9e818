(** C112: running a simulation leaves the rules of the model as they are. *)
From Verif Require Import Base Chunks DecMem Buffers Productions ProdSpec LearnFacts Sim SimSpec Compile CompileSpec CompileFacts Run RunSpec RunWitness RulesSpec RulesFacts RulesWitness.
Local Open Scope string_scope.
Local Open Scope list_scope.

(** The rules belong to the model, not to the simulation: what is learned in one simulation decides which rule fires in the next one. *)
Theorem C112_refuted : exists O s S S', qcompile (sp s) = false /\ left_by O 0 s None S /\ left_by O 0 (kw_state true (srules (ss S))) None S' /\
  s = kw_state true (srules s) /\ fired S = ["one"; "two"] /\ fired S' = ["other"; "two"].
Proof. exact another_rule. Qed.
Print Assumptions C112_refuted.
(** Without learning and compilation no sequence of run() and step() changes a rule, a utility or the order of the rules, even if it ends with an exception. *)
Theorem C112_fixed_partial : forall O t s env S, (forall g, env = Some g -> outside g) -> qlearn (sp s) = false -> qcompile (sp s) = false -> left_by O t s env S ->
  srules (ss S) = srules s /\ sorder (ss S) = sorder s.
Proof. exact rules_fixed. Qed.
Print Assumptions C112_fixed_partial.
(** With learning only utilities change. *)
Theorem C112_learning_partial : forall O t s env S, (forall g, env = Some g -> outside g) -> qcompile (sp s) = false -> left_by O t s env S ->
  but_utilities (srules s) (srules (ss S)) /\ sorder (ss S) = sorder s.
Proof. exact rules_learning. Qed.
Print Assumptions C112_learning_partial.
(** With compilation, too, the rules of the modeller stay and keep everything but their utilities. *)
Theorem C112_compiling_partial : forall O tie t s env S, compiles_with O tie -> (forall g, env = Some g -> outside g) -> left_by O t s env S ->
  forall n r, dget (srules s) n = Some r -> exists r', dget (srules (ss S)) n = Some r' /\ but_utility r r'.
Proof. exact rules_compiling. Qed.
Print Assumptions C112_compiling_partial.
(** C81 for run() and step(): also a rule that run() compiles at its end takes part in the selection. *)
Theorem C81_session_partial : forall O tie t s env S, compiles_with O tie -> (forall g, env = Some g -> outside g) -> left_by O t s env S ->
  (forall n, In n (sorder s) <-> In n (dkeys (srules s))) -> forall n, In n (sorder (ss S)) <-> In n (dkeys (srules (ss S))).
Proof. exact rules_ranked. Qed.
Print Assumptions C81_session_partial.

Example C112_used : exists O s S S', qlearn (sp s) = false /\ qcompile (sp s) = false /\ left_by O 0 s None S /\ left_by O 0 (kw_state false (srules (ss S))) None S' /\
  s = kw_state false (srules s) /\ fired S = ["one"; "two"] /\ fired S' = ["one"; "two"].
Proof. exact same_rules. Qed.
Example C112_compiled : exists tie O s S, compiles_with O tie /\ left_by O 0 s None S /\ all_ranked s /\ fired S <> [] /\ dget (srules s) "one and two" = None /\ dget (srules (ss S)) "one and two" <> None.
Proof. exact more_rules. Qed.
