(** Specification for C112: what calls of run() and step() leave behind. *)
From Verif Require Import Base Chunks DecMem Buffers Productions ProdSpec Sim Run RunSpec.

(** A simulation after any sequence of run() and step(), of which the last may have raised an exception. *)
Inductive left_by (O : oracle) (t : Z) (s : st) (env : option gen) : sim -> Prop :=
| left_session S l : session O t s env S l -> left_by O t s env S
| left_run S l u S' c : session O t s env S l -> run O u S (S', c) -> left_by O t s env S'
| left_step S l S' l' c : session O t s env S l -> step_ O l S (S', l', c) -> left_by O t s env S'.

(** The same rules in the same order that differ at most in their utilities. *)
Definition but_utility (r r' : rule) : Prop := rlhs r' = rlhs r /\ rrhs r' = rrhs r /\ rreward r' = rreward r.
Definition but_utilities (d d' : dict rule) : Prop := Forall2 (fun p p' => fst p' = fst p /\ but_utility (snd p) (snd p')) d d'.

(** The life of a model: simulations are prepared (model.py:284-327) and run, one after the other, each with its own oracle, rules, parameters
    and environment. *)
From Verif Require Import SimSpec ReachSpec Model.
Inductive life : world -> world -> Prop :=
| life_begin w : life w w
| life_prepare w w1 a env w2 r : life w w1 -> prepare_simulation w1 a env = (w2, r) -> life w w2
| life_simulation w w1 O t s env S : life w w1 -> sw s = w1 -> respects O -> (forall g, env = Some g -> aloof g) -> left_by O t s env S -> life w (sw (ss S)).
