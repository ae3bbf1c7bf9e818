(** Specifications for what is on the screen and in the window. *)
From Verif Require Import Base Chunks DecMem Buffers Productions Environment Sim.
Local Open Scope string_scope.
Local Open Scope list_scope.

(** What a user who looks at the screen should see: every text at its place. *)
Definition picture (o : option (list stimulus)) : list (string * Q * Q) :=
  match o with
  | None => []
  | Some l => flat_map (fun st => match sttext st with Some x => [(x, stx st, sty st)] | None => [] end) l
  end.

(** An object with a text and nothing besides its position, its text, its delay and what tkinter knows. *)
Definition plain_object (tk : string -> bool) (st : stimulus) : Prop :=
  sttext st <> None /\ tk "text" = true /\ stloctype st = None /\ stvistype st = None /\ stvisible st = None /\
  forall k, In k (dkeys (stfeats st)) -> tk k = true.

(** Screens with at least one object, all of them such objects. *)
Definition plain_screen (tk : string -> bool) (x : stim_arg) : Prop :=
  exists d, x = StMap d /\ d <> [] /\ forall n o, In (n, o) d -> exists st, o = Some st /\ plain_object tk st.

(** An environment of which every step keeps a property of the screen. *)
Fixpoint keeps_screen (Q : screen -> Prop) (g : gen) : Prop :=
  match g with
  | GRet => True
  | GRaise _ => True
  | GYield _ k => keeps_screen Q k
  | GCont k => keeps_screen Q k
  | GNote _ k => keeps_screen Q k
  | GAct f k => (forall s, Q (sscreen s) -> Q (sscreen (f s))) /\ keeps_screen Q k
  | GGet k => forall s, keeps_screen Q (k s)
  end.

(** Screens that were given to the environment. *)
Definition given (stimuli : list stim_arg) (x : screen) : Prop := exists a l, In a stimuli /\ stim_objects a = Ok l /\ xstim x = Some l.
