(** C107: run() with the environment in a window does what run() does without one. *)
From Verif Require Import Base BaseFacts Chunks DecMem Buffers Productions ProdSpec ProdWitness Sim SimFacts EnvWitness Run RunSpec RunFacts RunWitness Gui GuiFacts GuiWitness.
Local Open Scope string_scope.
Local Open Scope list_scope.

(** It does not: the time given to run() is not used; the run goes on until nothing is left to do and then leaves the program. *)
Theorem C107_time_refuted : exists O s g u S1 es S2, run O u (sim_init 0 s (Some g)) (S1, Returns) /\ show_time S1 = u /\
  gui_run O (sim_init 0 s (Some g)) (es, S2, Exits) /\ (u < show_time S2)%Z.
Proof. exact time_refuted. Qed.
Print Assumptions C107_time_refuted.
(** An exception in a model that ends run() without a window is lost: run() returns when the window is closed. *)
Theorem C107_exception_refuted : exists O s g u S1 f es S2 c, run O u (sim_init 0 s (Some g)) (S1, Raises f) /\ dead S1 = Some f /\
  gui_run O (sim_init 0 s (Some g)) (es, S2, Closed c) /\ c = Returns /\ dead S2 = Some f.
Proof. exact exception_refuted. Qed.
Print Assumptions C107_exception_refuted.
(** This is so whenever an exception ends run(): a run in a window gets to the same state, and it cannot end by itself. *)
Theorem C107_loses_partial : forall O t s env S l u S1 f, session O t s env S l -> run O u S (S1, Raises f) -> dead S1 = Some f ->
  (exists es, gui_run O S (es, fst (at_end O S1), Closed (snd (at_end O S1)))) /\ (forall es S2, ~ gui_run O S (es, S2, Exits)).
Proof. exact gui_loses. Qed.
Print Assumptions C107_loses_partial.
(** What is shown in a window is the trace, in order, where an event that is the same as the one before is left out.
    Only what happens in the very step in which an exception ends the model can be missing.  A run that ends by itself has nothing left to do. *)
Theorem C107_trace_partial : forall O t s env es S x, gui_run O (sim_init t s env) (es, S, x) ->
  exists tr tr', trace_of S = tr ++ tr' /\ squashed None tr es /\ (dead S = None -> tr' = []) /\ (x = Exits -> heap S = [] /\ dead S = None).
Proof. exact gui_trace. Qed.
Print Assumptions C107_trace_partial.
(** A run in a window that ends by itself ends in the state to which run() without a window leads in any time that is long enough,
    before run() compiles the last two rules: in a window they are never compiled. *)
Theorem C107_whole_partial : forall O t s env S l es S1 u, session O t s env S l -> gui_run O S (es, S1, Exits) -> (now S1 < u)%Z ->
  run O u S (at_end O (set_now u S1)).
Proof. exact gui_whole. Qed.
Print Assumptions C107_whole_partial.
(** A key is pressed, and the second screen comes after two seconds: all of this is shown. *)
Example C107_used : exists es S1, gui_run wx_oracle gw_init (es, S1, Exits) /\ now S1 = 20000%Z /\ map ewhat es = gw_events.
Proof. exact gui_used. Qed.
