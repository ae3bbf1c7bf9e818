(** What it means that the modules are free again. *)
From Verif Require Import Base Chunks DecMem Buffers Productions ProdSpec.
Local Open Scope string_scope.

(** The query state busy of the module of buffer number [i] is true. *)
Definition working (i : nat) (s : st) : Prop := exists m, nth_error (smods s) i = Some m /\ dget (mattr m) "state" = Some "busy".

(** A request whose slot cmd is empty, or says None: valid commands (utilities.py:77) on which
    productions.py:753-763 does nothing at all, so that the state that productions.py:725 has set stays. *)
Definition idle_command (m : meth) (c : content) (bs : bindings) : Prop :=
  m = MRetrieve /\ exists o args w, c = CChunk o /\ resolve_slots bs true (removeunused o) = Ok args /\
  dget args "cmd" = Some (RVV w) /\ (vvals w = VEmpty \/ vvals w = VStr "None").

(** A request of that kind for the buffer number [i] is waiting for the process of the buffer. *)
Definition idly_asked (i : nat) (s : st) : Prop := exists id n m c bs t, In (PReq id n m i c bs t) (sprocs s) /\ idle_command m c bs.

(** The slot has a fixed value, the name of a command. *)
Definition fixed_command (v : slotval) : Prop :=
  exists x, vvals (splitting v) = VStr x /\ vvar (splitting v) = None /\ (x = "move_attention" \/ x = "clear" \/ x = "press_key").
Definition commands (c : content) : Prop := forall o v, c = CChunk o -> In ("cmd", v) (cslots o) -> fixed_command v.
(** Every rule that sends a request with a slot cmd to the buffer number [i] says in the rule which command it is. *)
Definition commanded (i : nat) (s : st) : Prop :=
  forall r ru n c, dget (srules s) r = Some ru -> dget (snames s) n = Some i -> In (String "+" n, c) (rrhs ru) -> commands c.
