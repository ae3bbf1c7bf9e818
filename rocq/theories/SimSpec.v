(** Specifications for runs of the simulation. *)
From Coq Require Import Sorted.
From Verif Require Import Base Chunks DecMem Buffers Productions ProdSpec Sim.
Local Open Scope string_scope.

(** ** The trace *)

(** Events about rules: conflict resolution, selection, firing, stopping, compilation, no rule. *)
Definition rule_event (e : event) : bool := match ewhat e with WUnknown | WText _ => false | _ => true end.
Definition loud (l : list event) : list event := filter rule_event l.
Definition rule_events (S : sim) : list event := loud (map snd (log S)).

(** The events about rules in one complete cycle beginning at [t] (in units of 0.1 ms); [f] is the time of
    firing in seconds. *)
Inductive rule_cycle (f : Q) (t : Z) : list event -> Prop :=
| rule_cycle_none : rule_cycle f t [MkEv t PROCEDURAL WConflict; MkEv t PROCEDURAL WNoRule]
| rule_cycle_stopped r :
    rule_cycle f t [MkEv t PROCEDURAL WConflict; MkEv t PROCEDURAL (WSelected r); MkEv (roundtime ((t # 10000) + f)) PROCEDURAL (WStopped r)]
| rule_cycle_fired r :
    rule_cycle f t [MkEv t PROCEDURAL WConflict; MkEv t PROCEDURAL (WSelected r); MkEv (roundtime ((t # 10000) + f)) PROCEDURAL (WFired r)]
| rule_cycle_compiled r again n :
    rule_cycle f t [MkEv t PROCEDURAL WConflict; MkEv t PROCEDURAL (WSelected r);
                    MkEv (roundtime ((t # 10000) + f)) PROCEDURAL (WCompiled again n); MkEv (roundtime ((t # 10000) + f)) PROCEDURAL (WFired r)].

(** ** The environment *)

(** What a process of the environment may be: it does not touch the bindings, rules, names and
    parameters of the model, and its events are not about rules. *)
Fixpoint outside (g : gen) : Prop :=
  match g with
  | GRet => True
  | GRaise _ => True
  | GYield e k => rule_event e = false /\ outside k
  | GCont k => outside k
  | GNote _ k => outside k
  | GAct f k => (forall s, rely s (f s)) /\ outside k
  | GGet k => forall s, outside (k s)
  end.

(** ** One procedural process after another *)

(** [l]: complete runs of the procedural process, started one after the other from the state [s0]
    on; during these runs and in between the rest of the program respects [rely].  [s]: the state
    at the end. *)
Inductive story (O : oracle) (s0 : st) : list (list hop) -> st -> Prop :=
| story_nil s : rely s0 s -> story O s0 [] s
| story_snoc l s t tr s' :
    story O s0 l s -> runs rely (procedural O (seconds_of t)) s tr FDone -> rely (last (map hafter tr) s) s' ->
    story O s0 (l ++ [tr])%list s'.
