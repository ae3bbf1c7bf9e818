(** Witnesses for Props_Quiet.v. *)
From Verif Require Import Base BaseFacts Chunks DecMem Buffers Productions ProdSpec ProdWitness Sim SimWitness Compile CompileFacts CompileWitness Run RunSpec RunFacts RunWitness SafeSpec SafeWitness.
Local Open Scope string_scope.

Lemma cw_slow : slow_eyes cw_oracle.
Proof.
  unfold slow_eyes. intros s i c bs w ch enc prep exe site. unfold cw_oracle, vx_oracle. cbn [oshift]. destruct c; try discriminate. intros [= _ _ _ _ <- _]. unfold Qle. cbn. discriminate.
Qed.
Lemma vx_ranked b x y : all_ranked (vx_state (vx_rules b x y)).
Proof. intros n. cbn. tauto. Qed.
(** The eyes are on their way when the second request is made. *)
Lemma quiet_used : one_request (vx_state vx_shift) /\ plain_names (vx_state vx_shift) /\ NoDup (dkeys (snames (vx_state vx_shift))) /\ all_ranked (vx_state vx_shift) /\
  dget (srules (vx_state vx_shift)) "" = None /\ slow_eyes cw_oracle /\ compiles_with cw_oracle (fun _ _ => true) /\
  (exists S, sim_runs cw_oracle (vx_init vx_shift) S /\ dead S = None /\ todo S = [] /\ heap S = [] /\ now S = 3500%Z /\
     In (WFired "one") (map (fun e => ewhat (snd e)) (log S)) /\ In (WFired "two") (map (fun e => ewhat (snd e)) (log S))) /\
  exists S, session cw_oracle 0 (vx_state vx_shift) None S None /\ heap S = [] /\ now S = 20000%Z.
Proof.
  split; [apply names_ok_spec; vm_compute; reflexivity|]. split; [apply vx_plain|]. split; [apply vx_nodup|]. split; [apply vx_ranked|]. split; [reflexivity|]. split; [exact cw_slow|]. split; [exact cw_compiles|]. split.
  - exists (sim_exec cw_oracle 400 (vx_init vx_shift)). split; [apply sim_exec_runs; constructor|]. repeat (split; [vm_compute; reflexivity|]). split; vm_compute; tauto.
  - exists (sx_run 20000 (vx_init vx_shift)). split; [|split; vm_compute; reflexivity]. eapply session_run; [apply session_start|]. apply sim_of_ok. vm_compute. reflexivity.
Qed.
