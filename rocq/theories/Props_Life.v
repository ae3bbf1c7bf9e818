(** Property theorems about preparing and running several simulations of a model: C21, C113. *)
From Verif Require Import BaseFacts Chunks DecMem DecMemFacts Buffers BufferFacts Productions ProdSpec ProdWitness Sim SimSpec SimWitness ReachSpec ReachFacts MotorSpec Compile CompileSpec CompileFacts CompileWitness FrameSpec FrameFacts FrameWitness Environment EnvSpec Window WindowSpec Run RunSpec RunFacts RunWitness Model RulesSpec RulesWitness SessionLift.
From Verif Require Import LifeFacts.
Local Open Scope string_scope.
Local Open Scope list_scope.
Local Open Scope nat_scope.

(** Whether simulation() returns or raises an exception: the memories are as before, and every buffer is still there with the chunk, the
    recently retrieved chunks and the settings that it had.  (Which memory it harvests into is C64; under which name it is used is C111.) *)
Theorem C113_preparing_keeps : forall w a env w' r i b, prepare_simulation w a env = (w', r) -> nth_error (bufs w) i = Some b ->
  mems w' = mems w /\ exists b', nth_error (bufs w') i = Some b' /\ bkind b' = bkind b /\ bdata b' = bdata b /\ brecent b' = brecent b /\ bfinst b' = bfinst b /\
    bstims b' = bstims b /\ bact b' = bact b /\ bdelay b' = bdelay b.
Proof. exact prepare_keeps. Qed.
Print Assumptions C113_preparing_keeps.

(** A goal in a buffer without a memory, in a model whose memory has a chunk in it; with an environment. *)
Example C113_example :
  let goal := MkChunk "t" [("a", plain (VStr "x"))] in
  let wa := new_model (MkW [] [] []) in
  exists b w' a' bs dms b', nth_error (bufs (fst wa)) 0 = Some b /\ let w := set_buf (fst wa) 0 (set_dm (set_data b [goal]) None) in
    prepare_simulation w (snd wa) true = (w', Ok (a', bs, dms)) /\ nth_error (bufs w') 0 = Some b' /\ bdata b' = [goal] /\ bdm b' = Some 0 /\ List.length (bufs w') = 5.
Proof. cbn zeta. eexists _, _, _, _, _, _. split; [reflexivity|]. split; [reflexivity|]. split; [reflexivity|]. repeat split. Qed.

(** Full statement: see C21_recent_bounded_partial. *)
Theorem C21_recent_bounded_in_life_partial : forall w w' i b, life w w' -> nth_error (bufs w) i = Some b -> List.length (brecent b) <= bfinst b ->
  exists b', nth_error (bufs w') i = Some b' /\ bkind b' = bkind b /\ bfinst b' = bfinst b /\ List.length (brecent b') <= bfinst b.
Proof. exact life_recent_bounded. Qed.
Print Assumptions C21_recent_bounded_in_life_partial.

(** The life of C17_life_example begins with a buffer that remembers no more chunks than it may. *)
Example C21_life_example : let s := kw_state true kw_rules in let w1 := sw (ss (rw_run 10000 (sim_init 0 s None))) in
  life (sw s) w1 /\ exists b, nth_error (bufs (sw s)) 1 = Some b /\ List.length (brecent b) <= bfinst b.
Proof.
  cbv zeta. assert (RO : respects cw_oracle) by (repeat split; intros; try apply reach_refl; destruct c; apply reach_refl). split.
  - eapply life_simulation; [apply life_begin|reflexivity|exact RO| |eapply kw_session; vm_compute; reflexivity]. discriminate.
  - eexists. split; [reflexivity|]. vm_compute. repeat constructor.
Qed.
