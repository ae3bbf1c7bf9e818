(** C108, C109: what is on the screen, and what is in the window. *)
From Verif Require Import Base BaseFacts Chunks DecMem Buffers Productions ProdSpec ProdWitness Environment Sim SimFacts SimWitness EnvWitness Run RunSpec RunFacts RunWitness Window WindowSpec WindowFacts WindowWitness.
Local Open Scope string_scope.
Local Open Scope list_scope.

(** C108: what is on the screen comes from the environment.  Rules and modules never change the screen. *)
Theorem C108_alone : forall O t s S, sim_runs O (sim_init t s None) S -> sscreen (ss S) = sscreen s.
Proof. exact screen_alone. Qed.
Print Assumptions C108_alone.
(** With environment_process only screens that were given to it are ever shown. *)
Theorem C108_given : forall O t s initial stimuli triggers times start S,
  sim_runs O (sim_init t s (Some (env_process initial stimuli triggers times start))) S -> sscreen (ss S) = sscreen s \/ given (as_list stimuli) (sscreen (ss S)).
Proof. exact screen_given. Qed.
Print Assumptions C108_given.
(** Any environment: what every step of the environment keeps is kept by the simulation, from any moment on. *)
Theorem C108_kept : forall (Q : screen -> Prop) O t s env S1 S2, (forall g, env = Some g -> keeps_screen Q g) ->
  sim_runs O (sim_init t s env) S1 -> sim_runs O S1 S2 -> Q (sscreen (ss S1)) -> Q (sscreen (ss S2)).
Proof. exact screen_kept. Qed.
Print Assumptions C108_kept.
(** A key press brings the second screen (see C59). *)
Example C108_used : exists O s S1 S2,
  sim_runs O (sim_init 0 s (Some kx_early)) S1 /\ shown S1 = (2600%Z, MkScr (Some [kx_obj "two"]) ["A"]) /\
  sim_runs O S1 S2 /\ shown S2 = (20000%Z, MkScr (Some [kx_obj "two"]) ["A"]) /\
  last (trace S2) (0%Z, "", WUnknown) = (20000%Z, "ENVIRONMENT", WText "PRINTED NEW STIMULUS").
Proof. exact display_time. Qed.

(** C109: the window shows what is on the screen.  It does not when the screen is empty: then the window still shows the last screen. *)
Theorem C109_blank_refuted : exists O s tk stimuli ms old S, watched O None (sim_init 0 s (Some (ww_env stimuli))) ms old S /\
  on_screen S = Some [] /\ window tk (Some []) ms = Some [("one", 10%Q, 10%Q)].
Proof. exact blank_refuted. Qed.
Print Assumptions C109_blank_refuted.
(** Stimuli that are given as texts, as environment_process allows, end the drawing with an exception. *)
Theorem C109_text_refuted : exists O s stimuli ms old S, watched O None (sim_init 0 s (Some (ww_env stimuli))) ms old S /\
  stimuli = AMany [StOther "A"; StOther "B"] /\ forall tk, window tk (Some []) ms = None.
Proof. exact text_refuted. Qed.
Print Assumptions C109_text_refuted.
(** It does for every model when there are objects on every screen, all with a text and without keys that tkinter does not know. *)
Theorem C109_window_partial : forall O tk t s initial stimuli triggers times start ms old S,
  xstim (sscreen s) = None -> Forall (plain_screen tk) (as_list stimuli) ->
  watched O None (sim_init t s (Some (env_process initial stimuli triggers times start))) ms old S ->
  window tk (Some []) ms = Some (picture (on_screen S)).
Proof. exact window_shows. Qed.
Print Assumptions C109_window_partial.
Example C109_used : Forall (plain_screen tk_all) (as_list kx_screens) /\ xstim (sscreen (kx_state kx_one)) = None /\
  exists ms old S, watched wx_oracle None (sim_init 0 (kx_state kx_one) (Some (ww_env kx_screens))) ms old S /\
    on_screen S = Some [kx_obj "two"] /\ ms = [[kx_obj "one"]; [kx_obj "two"]] /\ window tk_all (Some []) ms = Some [("two", 10%Q, 10%Q)].
Proof. exact window_used. Qed.
