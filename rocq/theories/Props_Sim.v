(** Property theorems about whole simulations: C43, C44, C46, C62, C63.

    [sim_runs O (sim_init t s env) S]: the simulation of a model in state [s], started at time [t]
    with environment [env], can be in state [S]. *)
From Coq Require Import Sorted.
From Verif Require Import Base Chunks DecMem Buffers Productions ProdSpec ProdWitness Sim SimSpec SimFacts SerialFacts StoryFacts InterruptFacts SimWitness.
Local Open Scope string_scope.

(** ** C43 *)

(** The trace is sorted by time, and every event is logged at the time it bears, which is not
    after the present. *)
Theorem C43_time_never_runs_backwards : forall O t s env S, sim_runs O (sim_init t s env) S ->
  StronglySorted Z.le (map fst (log S)) /\
  Forall (fun te => fst te = etime (snd te) /\ (fst te <= now S)%Z) (log S).
Proof. exact (fun O t s env S H => i_log S (sim_ok O t s env S H)). Qed.
Print Assumptions C43_time_never_runs_backwards.

(** The clock never goes back. *)
Theorem C43_clock_never_goes_back : forall O t s env S S', sim_runs O (sim_init t s env) S ->
  sim_step O S = Some S' -> (now S <= now S')%Z.
Proof. exact (fun O t s env S S' H => step_clock O S S' (sim_ok O t s env S H)). Qed.
Print Assumptions C43_clock_never_goes_back.

Example C43_example : trace (wx_sim 200) =
  [(0%Z, "PROCEDURAL", WConflict); (0%Z, "PROCEDURAL", WSelected "high"); (500%Z, "PROCEDURAL", WUnknown); (500%Z, "PROCEDURAL", WFired "high");
   (500%Z, "g", WText "CLEARED"); (500%Z, "PROCEDURAL", WConflict); (500%Z, "PROCEDURAL", WNoRule)].
Proof. vm_compute. reflexivity. Qed.

(** ** C44 *)

(** The events about rules in the log of a simulation are complete cycles, one after the other, and
    the beginning of one more.  In a cycle the rule that fires or is stopped is the one that was
    selected, the firing time later; nothing else is selected in between (see [rule_cycle]).  The
    environment may do anything that does not concern rules. *)
Theorem C44_one_rule_at_a_time : forall O t s env S, (forall g, env = Some g -> outside g) ->
  sim_runs O (sim_init t s env) S ->
  exists cycles tail rest t1, rule_events S = (List.concat cycles ++ tail)%list /\
    Forall (fun c => exists t, rule_cycle (qfiring (sp s)) t c) cycles /\ rule_cycle (qfiring (sp s)) t1 (tail ++ rest).
Proof. exact sim_cycles. Qed.
Print Assumptions C44_one_rule_at_a_time.

(** The procedural process is run again and again, each run begins when the one before has ended,
    and the log contains their events.  The runs are those of the theorems in Props_Productions. *)
Theorem C44_runs_one_after_another : forall O t s env S, (forall g, env = Some g -> outside g) ->
  sim_runs O (sim_init t s env) S ->
  exists l s1 t1 tr f tail rest, story O s l s1 /\ runs rely (procedural O (seconds_of t1)) s1 tr f /\
    rule_events S = (List.concat (map (fun tr => loud (events tr)) l) ++ tail)%list /\ loud (events tr) = (tail ++ rest)%list.
Proof. exact sim_story. Qed.
Print Assumptions C44_runs_one_after_another.

Example C44_example : sim_runs wx_oracle (sim_init 0 (wx_state wx_par wx_high) None) (wx_sim 200) /\
  rule_events (wx_sim 200) = List.concat
    [[MkEv 0 PROCEDURAL WConflict; MkEv 0 PROCEDURAL (WSelected "high"); MkEv 500 PROCEDURAL (WFired "high")];
     [MkEv 500 PROCEDURAL WConflict; MkEv 500 PROCEDURAL WNoRule]].
Proof. split; [apply sim_exec_init|vm_compute; reflexivity]. Qed.

(** ** C46 *)

(** Full statement: the same for what is interrupted by a newer request, including its
    continuation.  Missing: continuations are not interrupted (see the refutation); this is about
    the processes that are.  A process of a buffer that gets an interruption does not change the
    model then and does not go on ever after. *)
Theorem C46_no_late_effect_partial : forall O t s env S S1 p r n l, (forall g, env = Some g -> outside g) ->
  sim_runs O (sim_init t s env) S ->
  todo S = WRun p (Bad TInterrupt) :: l -> proc_at p S = Some r -> pkind r = Some (GLocal false n) -> sim_step O S = Some S1 ->
  ss S1 = ss S /\ log S1 = log S /\ forall S2 o l', sim_runs O S1 S2 -> todo S2 <> WRun p o :: l'.
Proof. exact interrupted_ends. Qed.
Print Assumptions C46_no_late_effect_partial.

(** A retrieval that takes 200 ms is interrupted after 50 ms by the next one. *)
Example C46_example : sim_runs vx_oracle (vx_init vx_retrieve) (vx_hit2 vx_retrieve) /\ interrupted (vx_hit2 vx_retrieve) = Some (5%nat, Some (Some (GLocal false "retrieval"), false)).
Proof. split; [exact (vx_hit2_runs vx_retrieve)|vm_compute; reflexivity]. Qed.

(** A request to attend to "slow" is interrupted by a request to attend to "fast".  The latter is
    seen at 110 ms; at 350 ms the former comes back. *)
Theorem C46_no_late_effect_refuted : exists O s S1 S2 S3,
  sim_runs O (sim_init 0 s None) S1 /\ interrupted S1 = Some (3%nat, Some (Some (GExtra "visual"), true)) /\ now S1 = 1000%Z /\
  sim_runs O S1 S2 /\ content_of (ss S2) "visual" = [vx_seen "fast"] /\
  sim_runs O S2 S3 /\ content_of (ss S3) "visual" = [vx_seen "slow"] /\ now S3 = 3500%Z.
Proof.
  exists vx_oracle, (vx_state vx_shift), (vx_hit vx_shift), (sim_exec vx_oracle 100 (vx_hit vx_shift)), (sim_exec vx_oracle 200 (sim_exec vx_oracle 100 (vx_hit vx_shift))).
  split; [exact (vx_hit_runs vx_shift)|]. split; [vm_compute; reflexivity|]. split; [vm_compute; reflexivity|].
  split; [exact (sim_exec_init vx_oracle 100 (vx_hit vx_shift))|]. split; [vm_compute; reflexivity|].
  split; [exact (sim_exec_init vx_oracle 200 (sim_exec vx_oracle 100 (vx_hit vx_shift)))|]. split; vm_compute; reflexivity.
Qed.
Print Assumptions C46_no_late_effect_refuted.

(** ** C62 *)

(** Full statement: a rule may make several changes to one buffer.  This is false: a rule with the
    actions [*g] and [+g] ends the simulation with an Interrupt that nobody catches. *)
Theorem C62_two_actions_refuted : exists O s S, sim_runs O (sim_init 0 s None) S /\ dead S = Some TInterrupt /\
  last (trace S) (0%Z, "", WUnknown) = (500%Z, "PROCEDURAL", WFired "one").
Proof.
  exists vx_oracle, (vx_state dx_rules), (vx_sim dx_rules 400).
  split; [exact (sim_exec_init vx_oracle 400 (vx_init dx_rules))|]. split; vm_compute; reflexivity.
Qed.
Print Assumptions C62_two_actions_refuted.

(** ** C63 *)

(** Full statement: a retrieval that no newer request replaces is completed.  This is false with
    strict harvesting: clearing the buffer, which still holds the chunk retrieved before, cancels
    the retrieval in progress.  Nothing happens after 100 ms, although the retrieval would
    have been completed at 250 ms, as it is without strict harvesting. *)
Theorem C63_harvest_cancels_retrieval_refuted : exists O s s' S S',
  sim_runs O (sim_init 0 s None) S /\ sim_step O S = None /\ dead S = None /\ Forall (fun x => (fst (fst x) <= 1000)%Z) (trace S) /\
  In (500%Z, "retrieval", WText "START RETRIEVAL") (trace S) /\
  sim_runs O (sim_init 0 s' None) S' /\ In (2500%Z, "retrieval", WText "RETRIEVED") (trace S') /\
  sw s = sw s' /\ srules s = srules s' /\ qstrict (sp s) = true /\ qstrict (sp s') = false.
Proof.
  exists vx_oracle, (hx_state true), (hx_state false), (sim_exec vx_oracle 400 (sim_init 0 (hx_state true) None)), (sim_exec vx_oracle 400 (sim_init 0 (hx_state false) None)).
  split; [exact (sim_exec_init vx_oracle 400 (sim_init 0 (hx_state true) None))|]. split; [vm_compute; reflexivity|]. split; [vm_compute; reflexivity|].
  split; [vm_compute; repeat (constructor; [discriminate|]); constructor|]. split; [vm_compute; tauto|]. split; [exact (sim_exec_init vx_oracle 400 (sim_init 0 (hx_state false) None))|].
  split; [vm_compute; tauto|]. split; [reflexivity|]. split; [reflexivity|]. split; reflexivity.
Qed.
Print Assumptions C63_harvest_cancels_retrieval_refuted.
