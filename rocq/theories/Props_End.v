(** C99, C100: calls of run() and step() end. *)
From Verif Require Import Base Chunks DecMem Buffers Productions ProdWitness Environment EnvWitness Sim SimWitness Run RunSpec EndWitness.
Local Open Scope string_scope.
Local Open Scope list_scope.

(** Whatever the rules are and however long the simulation has run: run(u) comes back, it returns or raises an exception.  A
    rule has to take a tick of the clock (0.1 ms) or more; the environment is one of environment.py, or there is none.
    ([run] holds of the result of a call that ends; that there is one way to run is C85_unique.) *)
Theorem C99_run : forall O t s env S l u, (1 # 10000 <= qfiring (sp s))%Q -> usual env -> session O t s env S l -> exists r, run O u S r.
Proof. exact usual_run_ends. Qed.
Print Assumptions C99_run.
(** What one entry of the queue sets off (a step of simpy) ends as well, also if rules take no time. *)
Theorem C99_event : forall O t s env S l, usual env -> session O t s env S l -> heap S <> [] -> exists S', tick O S S'.
Proof. exact usual_tick_ends. Qed.
Print Assumptions C99_event.
(** A rule that fires for ever beside an environment. *)
Example C99_used : (1 # 10000 <= qfiring (sp (kx_state ew_rules)))%Q /\ usual (Some kx_early) /\ usual None /\
  session wx_oracle 0 (kx_state ew_rules) (Some kx_early) (ew_run 20000) None /\ fired (ew_run 20000) = 39%nat /\ List.length (heap (ew_run 20000)) = 2%nat /\
  show_time (ew_run 20000) = 20000%Z /\ sscreen (ss (ew_run 20000)) = MkScr (Some [kx_obj "two"]) ["A"].
Proof. exact end_used. Qed.

(** C100: step() goes on until there is an event to show, other than the last one shown.  It always comes back: it shows an event, or
    the simulation is over, or an exception is raised; so does steps(n).  This does not depend on the time that rules take. *)
Theorem C100_step : forall O t s env S l, usual env -> session O t s env S l -> exists r, step_ O l S r.
Proof. exact usual_step_ends. Qed.
Print Assumptions C100_step.
Theorem C100_steps : forall O t s env n S l, usual env -> session O t s env S l -> exists es r, steps_ O n l S es r.
Proof. exact (fun O t s env n S l He => usual_steps_end O t s env n He S l). Qed.
Print Assumptions C100_steps.
(** A rule that takes no time and fires for ever, after 24 calls of step(). *)
Example C100_used : let '(es, (x, l, c)) := ez_steps in
  usual None /\ (qfiring (sp ez_state) == 0)%Q /\ session wx_oracle 0 ez_state None x l /\ heap x <> [] /\ show_time x = 0%Z /\
  List.length es = 24%nat /\ firstn 5 (map ewhat es) = [WConflict; WSelected "stay"; WFired "stay"; WText "MODIFIED"; WConflict].
Proof. exact step_ends_used. Qed.
