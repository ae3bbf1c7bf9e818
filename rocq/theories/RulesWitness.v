(** Simulations for C112. *)
From Verif Require Import Base BaseFacts Chunks DecMem DecMemFacts Buffers Productions ProdSpec ProdFacts ProdWitness Sim SimWitness Compile CompileSpec CompileFacts CompileWitness Run RunSpec RunFacts RunWitness RulesSpec.
Local Open Scope string_scope.
Local Open Scope list_scope.

(** Two rules for the same goal, and a rule with a reward. *)
Definition kw_rule (p q : string) (u : Q) (rew : option Q) : rule := MkRule [("=g", CChunk (task None None (c_ p)))] [("=g", CChunk (task None None (c_ q)))] u rew.
Definition kw_rules : dict rule := [("one", kw_rule "start" "next" 5 None); ("other", kw_rule "start" "next" 4 None); ("two", kw_rule "next" "end" 5 (Some 0%Q))].
(** A simulation of a model with these rules: the goal is set anew. *)
Definition kw_state (learning : bool) (rules : dict rule) : st :=
  MkSt (MkPar false 0 (5 # 100) learning (1 # 2) true false true) (cw_world cw_goal)
    [("g", 0%nat); ("retrieval", 1%nat); ("visual_location", 2%nat)] [("decmem", 0%nat)] [wx_mod; wx_mod; wx_mod] false [] nobind
    rules (initial_order rules) [] [] 0 [] None cw_vals cw_vals None None (MkScr None []).
Notation kw_init l rules := (sim_init 0 (kw_state l rules) None).
Notation kw_run l rules := (rw_run 10000 (kw_init l rules)).
Definition fired (S : sim) : list string := flat_map (fun e => match ewhat e with WFired r => [r] | _ => [] end) (trace_of S).

Lemma kw_session l rules : call_of (run_exec cw_oracle 10000 1000 (kw_init l rules)) = Returns -> left_by cw_oracle 0 (kw_state l rules) None (kw_run l rules).
Proof. intros H. eapply left_session. eapply session_run; [apply session_start|]. apply rw_run_ok. exact H. Qed.
Notation kw_after := (srules (ss (kw_run true kw_rules))).
(** The model is run twice, with the same goal: another rule fires. *)
Lemma another_rule : exists O s S S', qcompile (sp s) = false /\ left_by O 0 s None S /\ left_by O 0 (kw_state true (srules (ss S))) None S' /\
  s = kw_state true (srules s) /\ fired S = ["one"; "two"] /\ fired S' = ["other"; "two"].
Proof.
  exists cw_oracle, (kw_state true kw_rules), (kw_run true kw_rules), (kw_run true kw_after). split; [reflexivity|]. split; [apply kw_session; vm_compute; reflexivity|].
  split; [apply kw_session; vm_compute; reflexivity|]. split; [reflexivity|]. split; vm_compute; reflexivity.
Qed.
(** Without learning the same rules fire. *)
Lemma same_rules : exists O s S S', qlearn (sp s) = false /\ qcompile (sp s) = false /\ left_by O 0 s None S /\ left_by O 0 (kw_state false (srules (ss S))) None S' /\
  s = kw_state false (srules s) /\ fired S = ["one"; "two"] /\ fired S' = ["one"; "two"].
Proof.
  exists cw_oracle, (kw_state false kw_rules), (kw_run false kw_rules), (kw_run false (srules (ss (kw_run false kw_rules)))). split; [reflexivity|]. split; [reflexivity|].
  split; [apply kw_session; vm_compute; reflexivity|]. split; [apply kw_session; vm_compute; reflexivity|]. split; [reflexivity|]. split; vm_compute; reflexivity.
Qed.
(** Rules that are compiled stay in the model. *)
Lemma more_rules : exists tie O s S, compiles_with O tie /\ left_by O 0 s None S /\ all_ranked s /\ fired S <> [] /\ dget (srules s) "one and two" = None /\ dget (srules (ss S)) "one and two" <> None.
Proof.
  exists (fun _ _ => true), cw_oracle, (rw_state true), (rw_run 10000 (rw_init true)). split; [exact cw_compiles|]. split.
  { eapply left_session. eapply session_run; [apply session_start|]. apply rw_run_ok. vm_compute. reflexivity. }
  split; [intros n; vm_compute; tauto|]. split; [vm_compute; discriminate|]. split; [reflexivity|]. vm_compute. discriminate.
Qed.
