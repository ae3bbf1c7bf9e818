(** Property theorems about key presses in a simulation with an environment: C61. *)
From Verif Require Import Base Chunks DecMem Buffers Productions ProdSpec ProdWitness Environment EnvSpec EnvFacts Sim SimSpec SimWitness EnvWitness KeySpec KeyFacts KeyRuns KeyWitness.
Local Open Scope string_scope.

(** Full statement: pressing keys does not break the simulation; it is false, see
    C61_keys_refuted.  Missing here: that the environment, once it has got the key, can take the old
    screen away (it cannot if the screen ends at the same moment).  What holds in every simulation
    with any environment: the process that presses a key gets a RuntimeError only if the key is a
    trigger, and the environment is over or has got a trigger key at this very moment already. *)
Theorem C61_press_partial : forall O t s g S S' p e,
  sim_runs O (sim_init t s (Some g)) S -> announces p e S -> sim_step O S = Some S' -> failed p TRuntime S' ->
  hit (ss S) /\ (env_over S \/ pressed_now O (sim_init t s (Some g)) S).
Proof. exact press_fails. Qed.
Print Assumptions C61_press_partial.

(** A press that the environment reacts to, and one that fails because the environment is over. *)
Example C61_press_example :
  (exists S S' p e, sim_runs wx_oracle (kx_init kx_one kx_early) S /\ presses p e S /\ ewhat e = WText "KEY PRESSED: A" /\ sim_step wx_oracle S = Some S' /\ ~ failed p TRuntime S' /\ ~ env_over S) /\
  (exists S S' p e, sim_runs wx_oracle (kx_init kx_many (kx_env "a" [1 # 10; 1 # 10])) S /\ presses p e S /\ ewhat e = WText "KEY PRESSED: A" /\ sim_step wx_oracle S = Some S' /\ failed p TRuntime S' /\ env_over S).
Proof. exact key_cases. Qed.
