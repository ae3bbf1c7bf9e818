(** Modules that are at work.  Every theorem is proved in BusyFacts.v or BusyWitness.v. *)
From Verif Require Import Base Chunks DecMem Buffers BufferFacts Productions ProdSpec ProdWitness Sim SimWitness EmmaWitness CompileWitness EnvWitness BusySpec BusyFacts BusyWitness.
Local Open Scope string_scope.

(** ** C104 *)

(** Full statement: a module is busy as long as it works on something.  It is false in two ways.  The visual module
    is free as soon as an object has been seen, although the movement of the eyes is still being prepared. *)
Theorem C104_seen_early_refuted : exists O name i c bs t s tr f, module_at i s /\ of_kind (sw s) i KVisual /\ runs (untouched i) (start O MRetrieve name i c bs t) s tr f /\
  map etime (events tr) = [10000; 10100; 10100; 10200]%Z /\ ~ waits_busy i "state" (roundtime t) tr.
Proof. exact seen_early. Qed.
Print Assumptions C104_seen_early_refuted.
(** A key that is pressed while the movement for an earlier key is being carried out: the end of the earlier movement
    makes the module free. *)
Theorem C104_two_keys_refuted : exists O t s n i e S, of_kind (sw s) i KMotor /\ dget (snames s) n = Some i /\ sim_runs O (sim_init t s None) S /\ waits_for n e S /\ ~ shows i "state" "busy" (ss S).
Proof. exact free_while_pressing. Qed.
Print Assumptions C104_two_keys_refuted.

(** Every action of a rule upon a buffer, except requests to the visual module: as long as nothing else changes the
    module, it is busy whenever time passes before the action is complete, also after the process has been
    continued by a second generator (key presses).  Missing: other actions upon the same buffer in between. *)
Theorem C104_busy_partial : forall O m name i c bs t s, module_at i s -> (m = MRetrieve -> ~ of_kind (sw s) i KVisual) ->
  forall tr f, runs (untouched i) (start O m name i c bs t) s tr f -> waits_busy i "state" (roundtime t) tr /\
  forall l h k s' tr' f', tr = (l ++ [h])%list -> f = FCont k -> untouched i (hafter h) s' -> runs (untouched i) k s' tr' f' -> waits_busy i "state" (last_time (roundtime t) tr) tr'.
Proof. exact start_waits. Qed.
Print Assumptions C104_busy_partial.
(** The visual module: its processor is busy. *)
Theorem C104_visual_partial : forall O name i c bs t s, module_at i s -> of_kind (sw s) i KVisual ->
  forall tr f, runs (untouched i) (start O MRetrieve name i c bs t) s tr f -> waits_busy i "processor" (roundtime t) tr /\
  forall l h k s' tr' f', tr = (l ++ [h])%list -> f = FCont k -> untouched i (hafter h) s' -> runs (untouched i) k s' tr' f' -> waits_busy i "processor" (last_time (roundtime t) tr) tr'.
Proof. exact visual_waits. Qed.
Print Assumptions C104_visual_partial.
(** A key press and the shift of attention above. *)
Example C104_example :
  (module_at 1 (kx_state []) /\ ~ of_kind (sw (kx_state [])) 1 KVisual /\
   exists tr l h k tr', runs (untouched 1) (start wx_oracle MRetrieve "manual" 1 (CChunk (kx_key "a")) nobind 1) (kx_state []) tr (FCont k) /\
     tr = (l ++ [h])%list /\ runs (untouched 1) k (hafter h) tr' FDone /\ map etime (events tr ++ events tr') = [10000; 11500; 12000; 12100; 12100; 13000]%Z) /\
  (module_at 2 (vx_state []) /\ of_kind (sw (vx_state [])) 2 KVisual /\
   exists tr l h k tr', runs (untouched 2) (start vx_oracle MRetrieve "visual" 2 (CChunk (vx_seen "fast")) nobind 1) (vx_state []) tr (FCont k) /\
     tr = (l ++ [h])%list /\ runs (untouched 2) k (hafter h) tr' FDone /\ map etime (events tr ++ events tr') = [10000; 10100; 10100; 10200; 10300; 10300]%Z).
Proof. exact busy_cases. Qed.
