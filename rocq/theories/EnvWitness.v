(** Concrete simulations with an environment. *)
From Verif Require Import Base Chunks DecMem DecMemFacts Buffers Productions ProdSpec ProdWitness Environment Sim SimWitness.
Local Open Scope string_scope.

(** A goal and a manual buffer; the model presses keys. *)
Definition kx_motor : modst := MkMod [("state", "free"); ("preparation", "free"); ("processor", "free"); ("execution", "free")] (None, 0%Q) (0%Q, 0%Q) true 0%Q.
Definition kx_state (rules : dict rule) : st :=
  MkSt wx_par (MkW [add_run []] [wx_buf [wx_goal "start"]; MkBuf KMotor [] None 0 [] [] None 0] init_registry)
    [("g", 0%nat); ("manual", 1%nat)] [("decmem", 0%nat)] [wx_mod; kx_motor] false [] nobind
    rules (initial_order rules) [] [] 0 [] None [("g", SNone); ("manual", SNone)] [("g", SNone); ("manual", SNone)] None None (MkScr None []).
Definition kx_key (k : string) : chunk := MkChunk "_manual" [("cmd", plain (VStr "press_key")); ("key", plain (VStr k))].
(** =g> step x  ?manual> state free ==> =g> step y  +manual> cmd press_key key k *)
Definition kx_rule (x y k : string) : rule :=
  MkRule [("=g", CChunk (wx_goal x)); ("?manual", CDict [("state", "free")])]
         [("=g", CChunk (wx_goal y)); ("+manual", CChunk (kx_key k))] 0 None.
Definition kx_env (trig : string) (times : list Q) : gen :=
  env_process 0 (AMany [StOther "A"; StOther "B"]) (AOne (TrText trig)) (AMany times) 0.
Definition kx_sim (rules : dict rule) (g : gen) (n : nat) : sim := sim_exec wx_oracle n (sim_init 0 (kx_state rules) (Some g)).

Definition kx_one : dict rule := [("press", kx_rule "start" "stop" "a")].
Definition kx_many : dict rule := [("press", kx_rule "start" "start" "a")].
(** The moments at which the screen changes, with the number of objects on it and the trigger. *)
Definition shown (S : sim) : Z * screen := (now S, sscreen (ss S)).
Notation kx_init rules g := (sim_init 0 (kx_state rules) (Some g)).
Notation kx_late := (env_process 0 (AMany [StOther "A"; StOther "B"]) (AOne (TrText "a")) (AOne 1%Q) (1 # 2)).
(** Two screens that differ. *)
Definition kx_obj (v : string) : stimulus := MkStim (Some v) 10 10 None None None None [].
Definition kx_screens : one_or_many stim_arg := AMany [StMap [("1", Some (kx_obj "one"))]; StMap [("2", Some (kx_obj "two"))]].
Notation kx_early := (env_process 0 kx_screens (AOne (TrText "a")) (AOne 1%Q) 0).

Theorem display_time : exists O s S1 S2,
  sim_runs O (sim_init 0 s (Some kx_early)) S1 /\ shown S1 = (2600%Z, MkScr (Some [kx_obj "two"]) ["A"]) /\
  sim_runs O S1 S2 /\ shown S2 = (20000%Z, MkScr (Some [kx_obj "two"]) ["A"]) /\
  last (trace S2) (0%Z, "", WUnknown) = (20000%Z, "ENVIRONMENT", WText "PRINTED NEW STIMULUS").
Proof.
  exists wx_oracle, (kx_state kx_one), (sim_exec wx_oracle 250 (kx_init kx_one kx_early)), (sim_exec wx_oracle 82 (sim_exec wx_oracle 250 (kx_init kx_one kx_early))).
  split; [exact (sim_exec_init wx_oracle 250 (kx_init kx_one kx_early))|]. split; [vm_compute; reflexivity|].
  split; [exact (sim_exec_init wx_oracle 82 (sim_exec wx_oracle 250 (kx_init kx_one kx_early)))|]. split; vm_compute; reflexivity.
Qed.
Theorem start_time : exists O s S, sim_runs O (sim_init 0 s (Some kx_late)) S /\ dead S = Some (TExn EValue) /\ now S = 0%Z.
Proof.
  exists wx_oracle, (kx_state kx_one), (sim_exec wx_oracle 100 (kx_init kx_one kx_late)).
  split; [exact (sim_exec_init wx_oracle 100 (kx_init kx_one kx_late))|]. split; vm_compute; reflexivity.
Qed.
Theorem keys_break :
  (exists O s S, sim_runs O (sim_init 0 s (Some (kx_env "a" [1 # 10; 1 # 10]))) S /\ dead S = Some TRuntime /\
     last (trace S) (0%Z, "", WUnknown) = (4600%Z, "manual", WText "KEY PRESSED: A")) /\
  (exists O s S, sim_runs O (sim_init 0 s (Some (kx_env "a" [26 # 100; 1%Q]))) S /\ dead S = Some TRuntime /\
     last (trace S) (0%Z, "", WUnknown) = (2600%Z, "manual", WText "KEY PRESSED: A")).
Proof.
  split.
  - exists wx_oracle, (kx_state kx_many), (sim_exec wx_oracle 1000 (kx_init kx_many (kx_env "a" [1 # 10; 1 # 10]))).
    split; [exact (sim_exec_init wx_oracle 1000 (kx_init kx_many (kx_env "a" [1 # 10; 1 # 10])))|]. split; vm_compute; reflexivity.
  - exists wx_oracle, (kx_state kx_one), (sim_exec wx_oracle 1000 (kx_init kx_one (kx_env "a" [26 # 100; 1%Q]))).
    split; [exact (sim_exec_init wx_oracle 1000 (kx_init kx_one (kx_env "a" [26 # 100; 1%Q])))|]. split; vm_compute; reflexivity.
Qed.
