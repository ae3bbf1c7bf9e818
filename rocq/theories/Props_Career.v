(** Property theorems about the rules of a model over several simulations: C112. *)
From Verif Require Import Base Chunks DecMem Buffers Productions ProdSpec LearnFacts Sim SimSpec Compile CompileSpec CompileFacts Run RunSpec RunWitness RulesSpec RulesFacts RulesWitness.
From Verif Require Import CompileWitness CareerSpec CareerFacts.
Local Open Scope string_scope.
Local Open Scope list_scope.

(** Full statement: see Props_Rules.v (C112_refuted: learning and compilation change the rules of the model).  Over any number of simulations: *)
Theorem C112_fixed_in_life_partial : forall d d', career (fun p => qlearn p = false /\ qcompile p = false) d d' -> d' = d.
Proof. exact career_fixed. Qed.
Print Assumptions C112_fixed_in_life_partial.
Theorem C112_learning_in_life_partial : forall d d', career (fun p => qcompile p = false) d d' -> but_utilities d d'.
Proof. exact career_learning. Qed.
Print Assumptions C112_learning_in_life_partial.
Theorem C112_compiling_in_life_partial : forall d d', career (fun _ => True) d d' -> forall n r, dget d n = Some r -> exists r', dget d' n = Some r' /\ but_utility r r'.
Proof. exact career_compiling. Qed.
Print Assumptions C112_compiling_in_life_partial.

(** Two simulations with learning; the second one starts with what the first one has learned. *)
Example C112_life_example : exists d2 d3, career (fun p => qcompile p = false) kw_rules d2 /\ career (fun p => qcompile p = false) kw_rules d3 /\ d2 <> kw_rules /\ d3 <> d2.
Proof.
  assert (K : forall d, career (fun p => qcompile p = false) kw_rules d -> call_of (run_exec cw_oracle 10000 1000 (kw_init true d)) = Returns ->
    career (fun p => qcompile p = false) kw_rules (srules (ss (kw_run true d)))).
  { intros d C R. refine (career_simulation _ _ d cw_oracle (fun _ _ => true) 0 (kw_state true d) None _ C _ _ cw_compiles _ (kw_session true d R)); [reflexivity|reflexivity|discriminate]. }
  exists (srules (ss (kw_run true kw_rules))), (srules (ss (kw_run true (srules (ss (kw_run true kw_rules)))))).
  assert (C1 : career (fun p => qcompile p = false) kw_rules (srules (ss (kw_run true kw_rules)))) by (apply K; [constructor|vm_compute; reflexivity]).
  split; [exact C1|]. split; [apply K; [exact C1|vm_compute; reflexivity]|].
  split; intros E; apply (f_equal (fun d => map (fun p => Qred (rutil (snd p))) d)) in E; vm_compute in E; discriminate E.
Qed.
