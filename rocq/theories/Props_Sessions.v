(** Property theorems about what any sequence of run() and step() does to the model, also if its last call raises an exception: C10, C17, C21, C39, C65, C84, C108. *)
From Verif Require Import BaseFacts Chunks DecMem DecMemFacts Buffers BufferFacts Productions ProdSpec ProdWitness Sim SimSpec SimWitness ReachSpec ReachFacts MotorSpec Compile CompileSpec CompileFacts CompileWitness FrameSpec FrameFacts FrameWitness Environment EnvSpec Window WindowSpec Run RunSpec RunFacts RunWitness Model RulesSpec RulesWitness SessionLift.
Local Open Scope string_scope.
Local Open Scope list_scope.
Local Open Scope nat_scope.

Theorem C10_at_most_one_in_sessions : forall O t s env S i l, respects O -> (forall g, env = Some g -> aloof g) ->
  (forall j k, holds_chunks (sw s) j k -> k = [] \/ exists c, k = [c]) ->
  left_by O t s env S -> holds_chunks (sw (ss S)) i l -> l = [] \/ exists c, l = [c].
Proof. exact left_at_most_one. Qed.
Print Assumptions C10_at_most_one_in_sessions.
Theorem C17_never_forgets_in_sessions : forall O t s env S m dm, respects O -> (forall g, env = Some g -> aloof g) ->
  left_by O t s env S -> memory (sw s) m = Some dm -> exists dm', memory (sw (ss S)) m = Some dm' /\ extends dm dm'.
Proof. exact left_never_forgets. Qed.
Print Assumptions C17_never_forgets_in_sessions.
Theorem C21_recent_bounded_in_sessions_partial : forall O t s env S i b, respects O -> (forall g, env = Some g -> aloof g) ->
  nth_error (bufs (sw s)) i = Some b -> List.length (brecent b) <= bfinst b -> left_by O t s env S ->
  exists b', nth_error (bufs (sw (ss S))) i = Some b' /\ bkind b' = bkind b /\ bfinst b' = bfinst b /\ List.length (brecent b') <= bfinst b.
Proof. exact left_recent_bounded. Qed.
Print Assumptions C21_recent_bounded_in_sessions_partial.
Theorem C39_known_keys_in_sessions : forall O t s env S, respects O -> (forall g, env = Some g -> aloof g) ->
  (forall u, In u (skeys s) -> exists v, u = VStr v /\ known_key v) ->
  left_by O t s env S -> forall u, In u (skeys (ss S)) -> exists v, u = VStr v /\ known_key v.
Proof. exact left_keys. Qed.
Print Assumptions C39_known_keys_in_sessions.
Theorem C65_parameters_kept_in_sessions_partial : forall O t s env S, respects O -> (forall g, env = Some g -> aloof g) -> left_by O t s env S ->
  sp (ss S) = sp s /\ snames (ss S) = snames s /\ sdm (ss S) = sdm s /\ (sprep (ss S) = true -> sprep s = true).
Proof. exact left_fixed. Qed.
Print Assumptions C65_parameters_kept_in_sessions_partial.
Theorem C84_untouched_in_sessions_partial : forall O tie t s env S n i b, minds_own O -> compiles_with O tie -> (forall g, env = Some g -> shows_only g) ->
  named s n i -> nth_error (bufs (sw s)) i = Some b -> bkind b <> KLocation -> bkind b <> KVisual ->
  spared s n -> unharvested s n -> (qstrict (sp s) = true -> qcompile (sp s) = false) -> sprocs s = [] -> svars s = nobind ->
  left_by O t s env S -> nth_error (bufs (sw (ss S))) i = Some b /\ nth_error (smods (ss S)) i = nth_error (smods s) i.
Proof. exact left_framed. Qed.
Print Assumptions C84_untouched_in_sessions_partial.

Theorem C108_given_in_sessions : forall O t s initial stimuli triggers times start S,
  left_by O t s (Some (env_process initial stimuli triggers times start)) S -> sscreen (ss S) = sscreen s \/ given (as_list stimuli) (sscreen (ss S)).
Proof. exact left_given. Qed.
Print Assumptions C108_given_in_sessions.
Theorem C108_alone_in_sessions : forall O t s S, left_by O t s None S -> sscreen (ss S) = sscreen s.
Proof. exact left_alone. Qed.
Print Assumptions C108_alone_in_sessions.

(** Three rules take turns and are compiled; run() is called twice. *)
Example C84_sessions_example : let s := fw_state false true (hold_rules "x") in let S1 := rw_run 1700 (sim_init 0 s None) in let S2 := rw_run 3000 S1 in
  respects cw_oracle /\ minds_own cw_oracle /\ compiles_with cw_oracle (fun _ _ => true) /\ left_by cw_oracle 0 s None S2 /\ qcompile (sp s) = true /\
  named s "imaginal" 2 /\ spared s "imaginal" /\ unharvested s "imaginal" /\
  (forall j k, holds_chunks (sw s) j k -> k = [] \/ exists c, k = [c]) /\
  dkeys (srules (ss S1)) <> dkeys (srules s) /\ trace_of S2 <> [] /\ content_of (ss S2) "imaginal" = [cw_fact].
Proof.
  cbv zeta. split; [repeat split; intros; try apply reach_refl; destruct c; apply reach_refl|]. split; [exact cw_minds_own|]. split; [exact cw_compiles|]. split.
  { eapply left_session. eapply session_run; [eapply session_run; [apply session_start|]|]; apply rw_run_ok; vm_compute; reflexivity. }
  split; [reflexivity|]. split; [apply fw_named|]. split; [apply fw_spared|]. split; [apply fw_unharvested; discriminate|]. split.
  { intros j k (b & E & <-). do 3 (destruct j as [|j]; [cbn in E; injection E as <-; cbn; eauto|]). destruct j; discriminate E. }
  split; [vm_compute; discriminate|]. split; [vm_compute; discriminate|]. vm_compute. reflexivity.
Qed.

(** Over any number of simulations of a model, each prepared by simulation() and with rules, parameters and environments of its own. *)
Theorem C17_never_forgets_in_life : forall w w' m dm, life w w' -> memory w m = Some dm -> exists dm', memory w' m = Some dm' /\ extends dm dm'.
Proof. exact life_never_forgets. Qed.
Print Assumptions C17_never_forgets_in_life.
Theorem C10_at_most_one_in_life : forall w w' i l, (forall j k, holds_chunks w j k -> k = [] \/ exists c, k = [c]) -> life w w' -> holds_chunks w' i l -> l = [] \/ exists c, l = [c].
Proof. exact life_at_most_one. Qed.
Print Assumptions C10_at_most_one_in_life.

(** A model is run, another simulation is prepared and run. *)
Example C17_life_example : let s := kw_state true kw_rules in let w1 := sw (ss (rw_run 10000 (sim_init 0 s None))) in
  exists w2 s2 w3, life (sw s) w1 /\ life (sw s) w2 /\ sw s2 = w2 /\ life (sw s) w3 /\ memory (sw s) 0 <> None /\ List.length (bufs w2) = 4.
Proof.
  cbv zeta. pose (s := kw_state true kw_rules). pose (S1 := rw_run 10000 (sim_init 0 s None)). pose (a := MkModel [("decmem", 0)] [("g", 0); ("retrieval", 1)] []).
  assert (RO : respects cw_oracle) by (repeat split; intros; try apply reach_refl; destruct c; apply reach_refl).
  assert (L1 : life (sw s) (sw (ss S1))).
  { eapply life_simulation; [apply life_begin|reflexivity|exact RO| |eapply kw_session; vm_compute; reflexivity]. discriminate. }
  pose (w2 := fst (prepare_simulation (sw (ss S1)) a false)).
  assert (L2 : life (sw s) w2) by (eapply life_prepare; [exact L1|apply surjective_pairing]).
  pose (s2 := set_w w2 s). pose (S2 := rw_run 10000 (sim_init 0 s2 None)).
  exists w2, s2, (sw (ss S2)). split; [exact L1|]. split; [exact L2|]. split; [reflexivity|]. split; [|split; [vm_compute; discriminate|vm_compute; reflexivity]].
  apply (life_simulation (sw s) w2 cw_oracle 0 s2 None S2 L2 eq_refl RO); [discriminate|]. eapply left_session. eapply session_run; [apply session_start|]. apply rw_run_ok. vm_compute. reflexivity.
Qed.
