(** Property theorems about what waits for its time in sequences of run() and step(), also if the last call raises an exception: C43, C44, C101. *)
From Coq Require Import Sorted.
From Verif Require Import BaseFacts Chunks DecMem DecMemFacts Buffers BufferFacts Productions ProdSpec ProdWitness Sim SimSpec SimWitness ReachSpec ReachFacts MotorSpec Compile CompileSpec CompileFacts CompileWitness FrameSpec FrameFacts FrameWitness Environment EnvSpec Window WindowSpec Run RunSpec RunFacts RunWitness Model RulesSpec RulesWitness SessionLift.
From Verif Require Import KeepSpec KeepRuns SleepFacts.
Local Open Scope string_scope.
Local Open Scope list_scope.

(** run(u) sets the clock to u; what is waited for is not before it. *)
Theorem C101_never_late_in_sessions : forall O tie t s env S p e, compiles_with O tie -> (forall g, env = Some g -> outside g) ->
  left_by O t s env S -> waits_for p e S -> (now S <= etime e)%Z.
Proof. exact left_never_late. Qed.
Print Assumptions C101_never_late_in_sessions.
(** If no event is left in the queue, nobody waits. *)
Theorem C101_nobody_left_in_sessions : forall O tie t s env S p e, compiles_with O tie -> (forall g, env = Some g -> outside g) ->
  left_by O t s env S -> peek S = None -> todo S = [] -> dead S = None -> ~ waits_for p e S.
Proof. exact left_nobody. Qed.
Print Assumptions C101_nobody_left_in_sessions.

(** run() stops at 170 ms while a rule is selected that fires at 200 ms. *)
Definition due_at (p : nat) (S : sim) : option Z :=
  match nth_error (prs S) p with Some r => match pcode r with KLocal _ _ e _ => Some (etime e) | _ => None end | None => None end.
Example C101_sessions_example : let s := fw_state false true (hold_rules "x") in let S1 := rw_run 1700 (sim_init 0 s None) in
  compiles_with cw_oracle (fun _ _ => true) /\ left_by cw_oracle 0 s None S1 /\ now S1 = 1700%Z /\ exists e, waits_for 7 e S1 /\ etime e = 2000%Z.
Proof.
  cbv zeta. split; [exact cw_compiles|]. split.
  { eapply left_session. eapply session_run; [apply session_start|]. apply rw_run_ok; vm_compute; reflexivity. }
  split; [vm_compute; reflexivity|]. assert (A : due_at 7 (rw_run 1700 (sim_init 0 (fw_state false true (hold_rules "x")) None)) = Some 2000%Z) by (vm_compute; reflexivity).
  generalize dependent (rw_run 1700 (sim_init 0 (fw_state false true (hold_rules "x")) None)). intros X A. unfold due_at in A. destruct (nth_error (prs X) 7) as [r|] eqn:E; [|discriminate].
  destruct (pcode r) as [| | | | | | | | |b n e k| | | | |] eqn:Ec; try discriminate. injection A as A. exists e. split; [|exact A]. exists r. split; [exact E|]. left. eauto.
Qed.

(** Events are written to the trace in the order of their times, and never before their times. *)
Theorem C43_time_never_runs_backwards_in_sessions : forall O t s env S, left_by O t s env S ->
  StronglySorted Z.le (map fst (log S)) /\ Forall (fun te => fst te = etime (snd te) /\ (fst te <= now S)%Z) (log S).
Proof. exact left_sorted. Qed.
Print Assumptions C43_time_never_runs_backwards_in_sessions.

(** Rules are selected and fire one at a time, wherever run() and step() stop in between. *)
Theorem C44_one_rule_at_a_time_in_sessions : forall O tie t s env S, compiles_with O tie -> (forall g, env = Some g -> outside g) -> left_by O t s env S ->
  exists cycles tail rest t1, rule_events S = (List.concat cycles ++ tail)%list /\
    Forall (fun c => exists t, rule_cycle (qfiring (sp s)) t c) cycles /\ rule_cycle (qfiring (sp s)) t1 (tail ++ rest).
Proof. exact left_cycles. Qed.
Print Assumptions C44_one_rule_at_a_time_in_sessions.

(** run() stops at 170 ms, in the middle of a cycle, and is called again. *)
Example C44_sessions_example : let s := fw_state false true (hold_rules "x") in let S1 := rw_run 1700 (sim_init 0 s None) in let S2 := rw_run 3000 S1 in
  compiles_with cw_oracle (fun _ _ => true) /\ left_by cw_oracle 0 s None S2 /\ Nat.ltb 0 (List.length (rule_events S1)) = true /\ Nat.ltb (List.length (rule_events S1)) (List.length (rule_events S2)) = true.
Proof.
  cbv zeta. split; [exact cw_compiles|]. split; [|split; vm_compute; reflexivity].
  eapply left_session. eapply session_run; [eapply session_run; [apply session_start|]|]; apply rw_run_ok; vm_compute; reflexivity.
Qed.
