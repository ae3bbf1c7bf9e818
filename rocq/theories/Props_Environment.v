(** Property theorems about the environment: C38, C58, C59, C60, C61. *)
From Verif Require Import Base Chunks DecMem Buffers Productions ProdSpec ProdWitness Environment EnvSpec EnvFacts Sim SimSpec SimWitness EnvWitness.
Local Open Scope string_scope.

(** ** C38 *)

(** If the arguments are accepted the process never raises and makes one step for each screen and
    one before them (see [screen_step]), whatever happens in between. *)
Theorem C38_screens_in_order : forall R initial stims trigs times start n s tr f,
  accepted (as_list stims) (as_list trigs) (as_list times) n ->
  runs R (env_process initial stims trigs times start) s tr f ->
  (f = FCut \/ f = FDone /\ List.length (events tr) = S n) /\
  forall i h, nth_error tr i = Some h -> screen_step (initial - start) (as_list stims) (as_list trigs) (as_list times) i h.
Proof. exact env_runs. Qed.
Print Assumptions C38_screens_in_order.

(** Otherwise there is an ACTRError and nothing else. *)
Theorem C38_others_rejected : forall R initial stims trigs times start s tr f,
  ~ (exists n, accepted (as_list stims) (as_list trigs) (as_list times) n) ->
  runs R (env_process initial stims trigs times start) s tr f ->
  events tr = [] /\ (f = FCut \/ f = FRaise EActr).
Proof. exact env_rejects. Qed.
Print Assumptions C38_others_rejected.

(** Nothing of the model but the screen is touched: the process meets the condition on environments
    in C44 and C46. *)
Theorem C38_environment_is_outside : forall initial stims trigs times start, outside (env_process initial stims trigs times start).
Proof. exact outside_env. Qed.
Print Assumptions C38_environment_is_outside.

(** Two screens, one set of keys, one time. *)
Example C38_example : accepted (as_list kx_screens) [TrList [Some "f"; Some "space"]] [3 # 2] 2 /\
  map (fun e => (etime e, ewhat e)) (events (fst (SelectFacts.exec SelectFacts.undisturbed 9 (env_process 1 kx_screens (AOne (TrList [Some "f"; Some "space"])) (AOne (3 # 2)) 0) (kx_state [])))) =
    [(10000%Z, WText "STARTING ENVIRONMENT"); (25000%Z, WText "PRINTED NEW STIMULUS"); (40000%Z, WText "PRINTED NEW STIMULUS")].
Proof.
  split; [|vm_compute; reflexivity]. split; [split; [right; right; split; reflexivity|right; reflexivity]|]. split.
  - constructor; [exists [kx_obj "one"]; reflexivity|constructor; [exists [kx_obj "two"]; reflexivity|constructor]].
  - right. constructor; [|constructor]. cbn. intros [H|[H|[]]]; discriminate.
Qed.

(** ** C58 *)

(** Full statement: an environment can be shown without triggers.  This is false for the default
    value of triggers (None), and true for the empty text. *)
Theorem C58_without_triggers_refuted : forall R initial stims times start s tr f,
  as_list stims <> [] -> runs R (env_process initial stims (AOne TrBad) times start) s tr f ->
  events tr = [] /\ (f = FCut \/ f = FRaise EActr).
Proof. exact env_default_rejected. Qed.
Print Assumptions C58_without_triggers_refuted.

Theorem C58_without_triggers_partial : forall R initial stims times start n s tr f i h e,
  accepted (as_list stims) [TrText ""] (as_list times) n ->
  runs R (env_process initial stims (AOne (TrText "")) times start) s tr f ->
  nth_error tr (S i) = Some h -> hevent h = Some e -> xtrig (sscreen (hafter h)) = [].
Proof. exact env_empty_trigger. Qed.
Print Assumptions C58_without_triggers_partial.

Example C58_example : accepted (as_list kx_screens) [TrText ""] [1%Q] 2.
Proof.
  split; [split; [right; right; split; reflexivity|right; reflexivity]|]. split.
  - constructor; [exists [kx_obj "one"]; reflexivity|constructor; [exists [kx_obj "two"]; reflexivity|constructor]].
  - right. constructor; [exact I|constructor].
Qed.

(** ** C59 *)

(** Full statement: a screen is shown for the time given for it, if no key ends it.  Here there are two
    screens of one second each.  A key ends the first one after 260 ms; the second one is there at
    260 ms, still there at 2 s, and its end is announced at 2 s. *)
Theorem C59_display_time_refuted : exists O s S1 S2,
  sim_runs O (sim_init 0 s (Some kx_early)) S1 /\ shown S1 = (2600%Z, MkScr (Some [kx_obj "two"]) ["A"]) /\
  sim_runs O S1 S2 /\ shown S2 = (20000%Z, MkScr (Some [kx_obj "two"]) ["A"]) /\
  last (trace S2) (0%Z, "", WUnknown) = (20000%Z, "ENVIRONMENT", WText "PRINTED NEW STIMULUS").
Proof. exact display_time. Qed.
Print Assumptions C59_display_time_refuted.

(** What holds: the announcements of two successive ends are the time of the second screen apart.
    Missing: the second screen begins when the first one ends. *)
Theorem C59_display_time_partial : forall R initial stims trigs times start n s tr f i h h' e e' q,
  accepted (as_list stims) (as_list trigs) (as_list times) n ->
  runs R (env_process initial stims trigs times start) s tr f ->
  nth_error tr i = Some h -> nth_error tr (S i) = Some h' -> hevent h = Some e -> hevent h' = Some e' ->
  pick (as_list times) i = Some q ->
  exists x, etime e = roundtime x /\ etime e' = roundtime (x + q).
Proof. exact env_differences. Qed.
Print Assumptions C59_display_time_partial.

Example C59_example : accepted (as_list kx_screens) [TrText "a"] [1%Q] 2 /\ pick [1%Q] 1 = Some 1%Q.
Proof.
  split; [|reflexivity]. split; [split; [right; right; split; reflexivity|right; reflexivity]|]. split.
  - constructor; [exists [kx_obj "one"]; reflexivity|constructor; [exists [kx_obj "two"]; reflexivity|constructor]].
  - right. constructor; [exact I|constructor].
Qed.

(** ** C60 *)

(** Full statement: start_time is the time of the first stimulus.  This is false: with 0.5 s the
    simulation ends with a ValueError. *)
Theorem C60_start_time_refuted : exists O s S, sim_runs O (sim_init 0 s (Some kx_late)) S /\ dead S = Some (TExn EValue) /\ now S = 0%Z.
Proof. exact start_time. Qed.
Print Assumptions C60_start_time_refuted.

(** What holds: with start_time 0 the environment starts at the initial time. *)
Theorem C60_start_time_partial : forall R initial stims trigs times n s h tr f e,
  accepted (as_list stims) (as_list trigs) (as_list times) n ->
  runs R (env_process initial stims trigs times 0) s (h :: tr) f -> hevent h = Some e ->
  etime e = roundtime initial.
Proof. exact env_start. Qed.
Print Assumptions C60_start_time_partial.

Example C60_example : exists h tr f, runs eq (env_process 1 kx_screens (AOne (TrText "a")) (AOne 1%Q) 0) (kx_state []) (h :: tr) f /\
  hevent h = Some (MkEv 10000 "ENVIRONMENT" (WText "STARTING ENVIRONMENT")).
Proof.
  exists (MkHop (kx_state []) [] (Some (MkEv 10000 "ENVIRONMENT" (WText "STARTING ENVIRONMENT"))) (kx_state [])), [], FCut. split; [|reflexivity].
  eapply runs_yield; [reflexivity|reflexivity|apply runs_cut].
Qed.

(** ** C61 *)

(** Full statement: pressing keys does not break the simulation.  This is false.  When the last
    screen is over, the second press of a trigger key is a RuntimeError; so is the first one if it
    happens at the very moment at which a screen ends. *)
Theorem C61_keys_refuted :
  (exists O s S, sim_runs O (sim_init 0 s (Some (kx_env "a" [1 # 10; 1 # 10]))) S /\ dead S = Some TRuntime /\
     last (trace S) (0%Z, "", WUnknown) = (4600%Z, "manual", WText "KEY PRESSED: A")) /\
  (exists O s S, sim_runs O (sim_init 0 s (Some (kx_env "a" [26 # 100; 1%Q]))) S /\ dead S = Some TRuntime /\
     last (trace S) (0%Z, "", WUnknown) = (2600%Z, "manual", WText "KEY PRESSED: A")).
Proof. exact keys_break. Qed.
Print Assumptions C61_keys_refuted.
