(** Specification for C112 over several simulations of a model. *)
From Verif Require Import Base Chunks DecMem Buffers Productions ProdSpec Sim SimSpec Compile CompileSpec CompileFacts Run RunSpec RulesSpec.

(** The rules of a model over several simulations: simulation() hands the rules of the model themselves to each of them (model.py:322-327); each
    has its own oracle, parameters, environment, buffers and memories.  [P]: what is asked of the parameters of all of them. *)
Inductive career (P : params -> Prop) : dict rule -> dict rule -> Prop :=
| career_begin d : career P d d
| career_simulation d d1 O tie t s env S : career P d d1 -> srules s = d1 -> P (sp s) -> compiles_with O tie -> (forall g, env = Some g -> outside g) -> left_by O t s env S -> career P d (srules (ss S)).
