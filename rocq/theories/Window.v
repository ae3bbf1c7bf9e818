(** Model of /repo/pyactr/simulation.py:342-360, 366-408: what is drawn in the window of an environment.

    The thread of the simulation puts screens into a queue, and the main thread takes them out in the same order;
    the window here is the one that has caught up with the queue.  A stimulus has a position (Buffers.v).  Objects on the
    screen are compared without their names in the dictionary of the screen (a screen that differs from the last one only
    there is drawn again, which shows the same).  The circle that shows the focus is left out. *)
From Verif Require Import Base Chunks DecMem Buffers Productions Sim Run.
Local Open Scope string_scope.
Local Open Scope list_scope.

Definition on_screen (S : sim) : option (list stimulus) := xstim (sscreen (ss S)).

(** simulation.py:355-357: after a step of simpy the screen is put into the queue, if there is something on it
    and it is not the last one that was put there. *)
Inductive sends (old : option (list stimulus)) (S : sim) : list (list stimulus) -> option (list stimulus) -> Prop :=
| sends_blank : on_screen S = None \/ on_screen S = Some [] -> sends old S [] old
| sends_old l : on_screen S = Some l -> l <> [] -> old = Some l -> sends old S [] old
| sends_new l : on_screen S = Some l -> l <> [] -> old <> Some l -> sends old S [l] (Some l).

(** simulation.py:342-360: rounds of the thread.  The list: what is put into the queue. *)
Inductive watched (O : oracle) : option (list stimulus) -> sim -> list (list stimulus) -> option (list stimulus) -> sim -> Prop :=
| watched_none old S : watched O old S [] old S
| watched_more old S S1 m old1 ms old' S' : dead S = None -> tick O S S1 -> dead S1 = None -> sends old S1 m old1 ->
    watched O old1 S1 ms old' S' -> watched O old S (m ++ ms) old' S'.

(** simulation.py:398-402: the options that are given to tkinter's create_text with the position: all keys but
    'position' and 'vis_delay'. *)
Definition options (st : stimulus) : list string :=
  (match sttext st with Some _ => ["text"] | None => [] end ++ match stloctype st with Some _ => ["visual_location_typename"] | None => [] end ++
   match stvistype st with Some _ => ["visual_typename"] | None => [] end ++ match stvisible st with Some _ => ["externally_visible"] | None => [] end ++
   dkeys (stfeats st))%list.
(** simulation.py:398-402, for one object.  [tk]: the options that tkinter knows; TclError is raised for
    others.  An object without text raises ACTRError. *)
Definition draw_one (tk : string -> bool) (st : stimulus) : option (string * Q * Q) :=
  if forallb tk (options st) then match sttext st with Some x => Some (x, stx st, sty st) | None => None end else None.
(** simulation.py:390-402: what was drawn before is deleted, then the objects are drawn one after the other.
    None: an exception is raised. *)
Fixpoint draw (tk : string -> bool) (l : list stimulus) : option (list (string * Q * Q)) :=
  match l with
  | [] => Some []
  | st :: l' => match draw_one tk st, draw tk l' with Some x, Some r => Some (x :: r) | _, _ => None end
  end.
(** simulation.py:322-332, 378-408: all that is in the queue is drawn.  None: an exception was raised; then
    __periodicCall__ is not called again, and the window is not changed any more. *)
Fixpoint window (tk : string -> bool) (w : option (list (string * Q * Q))) (ms : list (list stimulus)) : option (list (string * Q * Q)) :=
  match w, ms with
  | None, _ => None
  | Some _, [] => w
  | Some _, m :: ms' => window tk (draw tk m) ms'
  end.
