(** Property theorems about what whole simulations do to the model: C10, C17, C21, C65. *)
From Verif Require Import BaseFacts Chunks DecMem DecMemFacts Buffers BufferFacts Productions ProdSpec ProdWitness Environment Sim SimSpec SimWitness EnvWitness ReachSpec ReachFacts.
Local Open Scope string_scope.
Local Open Scope list_scope.
Local Open Scope nat_scope.

(** The environments of environment.py are of the kind that these theorems are about. *)
Theorem C65_environment_keeps_model : forall initial stims trigs times start, aloof (env_process initial stims trigs times start).
Proof. exact env_aloof. Qed.
Print Assumptions C65_environment_keeps_model.

(** A model that makes two retrievals, one after the other, with one finst. *)
Definition fx_rules : dict rule :=
  [("one", MkRule (wx_lhs "start") [("=g", CChunk (wx_goal "middle")); ("+retrieval", CChunk (wx_goal "x"))] 0 None);
   ("two", MkRule [("=g", CChunk (wx_goal "middle")); ("=retrieval", CChunk (wx_goal "x"))]
                  [("=g", CChunk (wx_goal "end")); ("+retrieval", CChunk (wx_goal "y"))] 0 None)].
Definition fx_dm : decmem := add_run [(wx_goal "x", 0%Q); (wx_goal "y", 0%Q)].
Definition fx_state : st :=
  MkSt (MkPar false 0 (5 # 100) false (1 # 2) true false true)
    (MkW [fx_dm] [wx_buf [wx_goal "start"]; MkBuf KRetrieval [] (Some 0%nat) 1 [] [] None 0] init_registry)
    [("g", 0%nat); ("retrieval", 1%nat)] [("decmem", 0%nat)] [wx_mod; wx_mod] false [] nobind
    fx_rules (initial_order fx_rules) [] [] 0 [] None [("g", SNone)] [("g", SNone)] None None (MkScr None []).
Notation fx_init := (sim_init 0 fx_state None).

(** ** C10 *)

Theorem C10_at_most_one_in_simulations : forall O t s env S i l, respects O -> (forall g, env = Some g -> aloof g) ->
  (forall j k, holds_chunks (sw s) j k -> k = [] \/ exists c, k = [c]) ->
  sim_runs O (sim_init t s env) S -> holds_chunks (sw (ss S)) i l -> l = [] \/ exists c, l = [c].
Proof. exact sim_at_most_one. Qed.
Print Assumptions C10_at_most_one_in_simulations.

(** ** C17 *)

Theorem C17_never_forgets_in_simulations : forall O t s env S m dm, respects O -> (forall g, env = Some g -> aloof g) ->
  sim_runs O (sim_init t s env) S -> memory (sw s) m = Some dm -> exists dm', memory (sw (ss S)) m = Some dm' /\ extends dm dm'.
Proof. exact sim_never_forgets. Qed.
Print Assumptions C17_never_forgets_in_simulations.

(** ** C21 *)

(** Full statement: see C21_recent_bounded_partial. *)
Theorem C21_recent_bounded_in_simulations_partial : forall O t s env S i b, respects O -> (forall g, env = Some g -> aloof g) ->
  nth_error (bufs (sw s)) i = Some b -> List.length (brecent b) <= bfinst b ->
  sim_runs O (sim_init t s env) S ->
  exists b', nth_error (bufs (sw (ss S))) i = Some b' /\ bkind b' = bkind b /\ bfinst b' = bfinst b /\ List.length (brecent b') <= bfinst b.
Proof. exact sim_recent_bounded. Qed.
Print Assumptions C21_recent_bounded_in_simulations_partial.

(** What the simulation has done at its end: the buffers hold one chunk each, "x" is in memory once more, and
    the second of two retrieved chunks is remembered. *)
Example lifted_example : exists S, respects wx_oracle /\ sim_runs wx_oracle fx_init S /\ sim_step wx_oracle S = None /\
  (forall j k, holds_chunks (sw fx_state) j k -> k = [] \/ exists c, k = [c]) /\
  map bdata (bufs (sw (ss S))) = [[wx_goal "end"]; [wx_goal "y"]] /\
  map dmdata (mems (sw (ss S))) = [[(wx_goal "x", [(0 # 10000)%Q; (1000 # 10000)%Q]); (wx_goal "y", [(0 # 10000)%Q])]] /\
  map brecent (bufs (sw (ss S))) = [[]; [Some (wx_goal "y")]].
Proof.
  exists (sim_exec wx_oracle 400 fx_init). split; [exact wx_respects|]. split; [exact (sim_exec_init wx_oracle 400 fx_init)|]. split; [vm_compute; reflexivity|]. split.
  { intros j k (b & E & <-). destruct j as [|[|j]]; cbn in E; [injection E as <-; cbn; eauto..|]. destruct j; discriminate E. }
  split; [vm_compute; reflexivity|]. split; vm_compute; reflexivity.
Qed.

(** ** C65 *)

(** Full statement: nothing of the model's parameters changes in a simulation.  Missing:
    motor_prepared (see the refutation).  It can only be unset. *)
Theorem C65_parameters_kept_partial : forall O t s env S, respects O -> (forall g, env = Some g -> aloof g) -> sim_runs O (sim_init t s env) S ->
  sp (ss S) = sp s /\ snames (ss S) = snames s /\ sdm (ss S) = sdm s /\ (sprep (ss S) = true -> sprep s = true).
Proof. exact sim_fixed. Qed.
Print Assumptions C65_parameters_kept_partial.

(** The same model, run twice from the same buffers and memories: the first time the key is pressed after 110 ms,
    the second time after 260 ms. *)
Theorem C65_parameters_kept_refuted : exists O s S S',
  sim_runs O (sim_init 0 s None) S /\ sim_step O S = None /\ sprep s = true /\ sprep (ss S) = false /\ pressed_at S = [1100%Z] /\
  sim_runs O (sim_init 0 (set_prep (sprep (ss S)) s) None) S' /\ pressed_at S' = [2600%Z].
Proof. exact prepared_once. Qed.
Print Assumptions C65_parameters_kept_refuted.
