(** When the scheduling of a simulation is sound. *)
From Verif Require Import Base Chunks DecMem Buffers Productions ProdSpec Sim.
Local Open Scope string_scope.

(** The buffers to which an action side sends requests ("+" and "*"), one entry for each request. *)
Definition asked_names (rhs : dict content) : list string :=
  flat_map (fun key => match key with String "+" n => [n] | String "*" n => [n] | _ => [] end) (dkeys rhs).

(** No rule sends two requests to the same buffer. *)
Definition one_request (s : st) : Prop := forall r ru, dget (srules s) r = Some ru -> NoDup (asked_names (rrhs ru)).

(** With strict harvesting, no buffer has a name that begins with "=". *)
Definition plain_names (s : st) : Prop := qstrict (sp s) = true -> forall x, dget (snames s) (String "=" x) = None.

(** The exceptions of the scheduling itself: an event that is triggered twice, a process that is
    interrupted although it has ended or interrupts itself (RuntimeError), and an interruption that
    nobody catches (simpy.Interrupt). *)
Definition scheduling (t : fault) : Prop := t = TRuntime \/ t = TInterrupt.

(** In the next step the code of a process raises [f]. *)
Definition raising (O : oracle) (S : sim) (f : fault) : Prop :=
  exists p o l r S2, todo S = WRun p o :: l /\ nth_error (prs S) p = Some r /\ go_on O p (pcode r) o (set_todo l S) = (S2, inr f).

(** Moving the eyes takes at least two ticks, 0.2 ms. *)
Definition slow_eyes (O : oracle) : Prop :=
  forall s i c bs w ch enc prep exe site, oshift O s i c bs = (w, Ok (ch, (enc, prep, exe), site)) -> (2 # 10000 <= exe)%Q.
