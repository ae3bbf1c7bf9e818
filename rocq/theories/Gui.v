(** Model of /repo/pyactr/simulation.py:254-263, 298-363: run() when the environment is shown in a window.

    run() is called in the main thread, which waits for the window; a second thread carries out the simulation and
    prints its events.  Both threads touch the simulation only one after the other here: when the user closes
    the window, the second thread ends the round it is in before the main thread goes on (simulation.py:320, 259-263).
    What is drawn in the window (GuiPart, 366-414) and real time are not modelled; an exception in the code
    that draws is not either. *)
From Verif Require Import Base Chunks DecMem Buffers Productions Sim Run.
Local Open Scope list_scope.

(** simulation.py:347-354: the event that is printed after a step of simpy, and the value of self.__last_event after it. *)
Definition fresh (lst : option event) (S : sim) : list event := match news lst S with Some e => [e] | None => [] end.
Definition seen (lst : option event) (S : sim) : option event := match news lst S with Some e => Some e | None => lst end.

(** simulation.py:342-360: rounds of the second thread in which simpy's step() returns.  The list: the events that
    were new; they are printed if trace is on and they are not of the environment, 352-354.  (355-360: a change of the screen or of the focus is sent to the window.) *)
Inductive rounds (O : oracle) : option event -> sim -> list event -> option event -> sim -> Prop :=
| rounds_none lst S : rounds O lst S [] lst S
| rounds_more lst S S1 es l S' : dead S = None -> tick O S S1 -> dead S1 = None -> rounds O (seen lst S1) S1 es l S' ->
    rounds O lst S (fresh lst S1 ++ es) l S'.

(** How run() ends.
    [Exits]: with SystemExit, simulation.py:328-331.
    [Closed c]: the user has closed the window, and run() goes on with line 262. *)
Inductive ending := Exits | Closed (c : call).

(** simulation.py:298-320, 259-263: run() with a window.  max_time is not used.  self.__last_event is reset at 338.
    - The queue is empty: EmptySchedule is caught at 345, the new event, if there is one, is printed, the loop
      ends, and the main thread leaves the program.
    - The user closes the window after some rounds.
    - Another exception ends the second thread; the main thread does not learn of it (self.__running stays
      True) and waits until the user closes the window. *)
Inductive gui_run (O : oracle) (S : sim) : list event * sim * ending -> Prop :=
| gui_exits es l S1 : rounds O None S es l S1 -> todo S1 = [] -> dead S1 = None -> peek S1 = None -> gui_run O S (es ++ fresh l S1, S1, Exits)
| gui_closed es l S1 S2 c : rounds O None S es l S1 -> at_end O S1 = (S2, c) -> gui_run O S (es, S2, Closed c)
| gui_fails es l S1 S2 S3 t c : rounds O None S es l S1 -> dead S1 = None -> tick O S1 S2 -> dead S2 = Some t -> at_end O S2 = (S3, c) ->
    gui_run O S (es, S3, Closed c).
