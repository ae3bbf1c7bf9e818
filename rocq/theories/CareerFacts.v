(** What several simulations do to the rules of a model. *)
From Verif Require Import Base Chunks DecMem Buffers Productions ProdSpec Sim SimSpec Compile CompileSpec CompileFacts Run RunSpec RulesSpec RulesFacts CareerSpec.

Theorem career_fixed d d' : career (fun p => qlearn p = false /\ qcompile p = false) d d' -> d' = d.
Proof.
  intros H. induction H as [d|d d1 O tie t s env S H IH E [L C] _ He Lb]; [reflexivity|]. destruct (rules_fixed O t s env S He L C Lb) as [-> _]. congruence.
Qed.
Theorem career_learning d d' : career (fun p => qcompile p = false) d d' -> but_utilities d d'.
Proof.
  intros H. induction H as [d|d d1 O tie t s env S H IH E C _ He Lb]; [apply buts_refl|]. subst d1. destruct (rules_learning O t s env S He C Lb) as [K _]. exact (buts_trans _ _ _ IH K).
Qed.
Theorem career_compiling d d' : career (fun _ => True) d d' -> forall n r, dget d n = Some r -> exists r', dget d' n = Some r' /\ but_utility r r'.
Proof.
  intros H. change (rules_kept d d'). induction H as [d|d d1 O tie t s env S H IH E _ CO He Lb]; [apply rules_kept_refl|]. subst d1.
  exact (rules_kept_trans _ _ _ IH (rules_compiling O tie t s env S CO He Lb)).
Qed.
