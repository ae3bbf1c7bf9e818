(** C84: what changes a buffer. *)
From Verif Require Import Base BaseFacts Chunks DecMem Buffers Productions ProdSpec ProdWitness Sim SimSpec SimWitness Compile CompileFacts CompileWitness Environment EnvWitness FrameFacts FrameWitness FrameSpec.
Local Open Scope string_scope.

(** The full statement, that a goal or retrieval buffer keeps its content as long as no rule mentions it, is
    false: under strict harvesting, a variable that has the name of the buffer has it cleared. *)
Theorem C84_refuted : ~ (forall O tie t s env S n i b, minds_own O -> compiles_with O tie -> (forall g, env = Some g -> shows_only g) ->
  named s n i -> nth_error (bufs (sw s)) i = Some b -> bkind b <> KLocation -> bkind b <> KVisual -> sprocs s = [] -> svars s = nobind ->
  (forall r ru, dget (srules s) r = Some ru -> ~ mentioned (rrhs ru) n /\ ~ mentioned (rlhs ru) n) ->
  sim_runs O (sim_init t s env) S -> nth_error (bufs (sw (ss S))) i = Some b).
Proof.
  intros H. specialize (H cw_oracle _ 0%Z (fw_state true false (hold_rules "imaginal")) None (fw_sim true false (hold_rules "imaginal") 120) "imaginal" 2%nat
    (wx_buf [cw_fact]) cw_minds_own cw_compiles (fun g E => ltac:(discriminate E)) (fw_named _ _ _) eq_refl ltac:(discriminate) ltac:(discriminate) eq_refl eq_refl).
  assert (K : forall r ru, dget (srules (fw_state true false (hold_rules "imaginal"))) r = Some ru -> ~ mentioned (rrhs ru) "imaginal" /\ ~ mentioned (rlhs ru) "imaginal").
  { intros r ru E. split; [exact (fw_spared _ _ _ r ru E)|]. intros (c & M). apply hold_rule in E. destruct E as (E & _). rewrite E in M. destruct M as [M|[]]. discriminate M. }
  specialize (H K ltac:(apply sim_exec_init)). vm_compute in H. discriminate H.
Qed.
Print Assumptions C84_refuted.

(** Guarded: no rule acts upon the buffer, and under strict harvesting no rule tests it or has a variable of its
    name.  Then the buffer and the state of its module are the same at every moment of every simulation.
    Missing: visual buffers (they are also changed by what is shown); strict harvesting together with
    production compilation. *)
Theorem C84_untouched_partial : forall O tie t s env S n i b, minds_own O -> compiles_with O tie -> (forall g, env = Some g -> shows_only g) ->
  named s n i -> nth_error (bufs (sw s)) i = Some b -> bkind b <> KLocation -> bkind b <> KVisual ->
  spared s n -> unharvested s n -> (qstrict (sp s) = true -> qcompile (sp s) = false) -> sprocs s = [] -> svars s = nobind ->
  sim_runs O (sim_init t s env) S -> nth_error (bufs (sw (ss S))) i = Some b /\ nth_error (smods (ss S)) i = nth_error (smods s) i.
Proof. exact sim_framed. Qed.
Print Assumptions C84_untouched_partial.

(** With strict harvesting (and the variable called otherwise), and with compilation, while three rules take turns. *)
Example C84_untouched_example :
  minds_own cw_oracle /\ compiles_with cw_oracle (fun _ _ => true) /\
  (forall strict comp rules, named (fw_state strict comp rules) "imaginal" 2%nat /\ nth_error (bufs (sw (fw_state strict comp rules))) 2 = Some (wx_buf [cw_fact])) /\
  (forall strict comp, spared (fw_state strict comp (hold_rules "x")) "imaginal" /\ unharvested (fw_state strict comp (hold_rules "x")) "imaginal") /\
  sim_runs cw_oracle (fw_init true false (hold_rules "x")) (fw_sim true false (hold_rules "x") 120) /\
  goal_of (ss (fw_sim true false (hold_rules "x") 120)) = Some (c_ "7", c_ "7", c_ "done") /\
  sim_runs cw_oracle (fw_init false true (hold_rules "x")) (fw_sim false true (hold_rules "x") 300) /\
  dkeys (srules (ss (fw_sim false true (hold_rules "x") 300))) = ["one"; "two"; "three"; "one and two"; "two and three"; "three and one"] /\
  content_of (ss (fw_sim false true (hold_rules "x") 300)) "imaginal" = [cw_fact].
Proof.
  split; [exact cw_minds_own|]. split; [exact cw_compiles|]. split; [intros strict comp rules; split; [apply fw_named|reflexivity]|].
  split; [intros strict comp; split; [apply fw_spared|apply fw_unharvested; discriminate]|].
  split; [apply sim_exec_init|]. split; [vm_compute; reflexivity|]. split; [apply sim_exec_init|]. split; vm_compute; reflexivity.
Qed.

(** Whatever a process does on behalf of one buffer, step by step and also after it has been taken over by the
    module, it changes no other buffer. *)
Theorem C84_one_buffer : forall O R m name i c bs t s tr f, minds_own O -> runs R (start O m name i c bs t) s tr f ->
  Forall (fun h => others_same i (sw (hbefore h)) (sw (hafter h))) tr /\
  (forall k, f = FCont k -> forall R' s' tr' f', runs R' k s' tr' f' -> Forall (fun h => others_same i (sw (hbefore h)) (sw (hafter h))) tr').
Proof. exact start_local. Qed.
Print Assumptions C84_one_buffer.

(** Clearing the goal buffer empties it and leaves the other buffers. *)
Example C84_one_buffer_example : let s := fw_state false false (hold_rules "x") in
  exists tr, runs rely (start cw_oracle MClear "g" 0 CNone nobind 0) s tr FDone /\
    List.length tr = 2%nat /\ content_of s "g" = [cw_goal] /\
    match rev tr with h :: _ => content_of (hafter h) "g" = [] /\ content_of (hafter h) "imaginal" = [cw_fact] | [] => False end.
Proof.
  cbv zeta. eexists. split; [|split; [|split; [reflexivity|]]].
  - eapply runs_yield; [reflexivity|repeat split|]. eapply runs_done. reflexivity.
  - reflexivity.
  - split; reflexivity.
Qed.

(** Environments that show stimuli and wait change nothing but the screen. *)
Theorem C84_environment : forall initial stimuli triggers times start, shows_only (env_process initial stimuli triggers times start).
Proof. exact env_shows. Qed.
Print Assumptions C84_environment.

Example C84_environment_example : match env_process 1 kx_screens (AOne (TrText "a")) (AOne 1%Q) 0 with GYield _ (GAct f _) => sscreen (f (kx_state [])) <> sscreen (kx_state []) | _ => False end.
Proof. vm_compute. discriminate. Qed.
