(** Property theorems about compiled rules that are created again: C78. *)
From Coq Require Import Qabs.
From Verif Require Import Base Chunks DecMem Productions Compile AgainSpec AgainFacts AgainWitness.
Local Open Scope string_scope.
Local Open Scope Q_scope.

(** ** C78 *)

(** One creation: only the utility of the compiled rule can change, by a step of the learning rate
    towards the utility of the first parent. *)
Theorem C78_step : forall tie s n1 n2 vals n rs,
  compile_rules tie s n1 n2 vals = Ok (Some (n, true, rs)) ->
  exists u t, utility s n = Some u /\ utility s n1 = Some t /\ n <> n1 /\
    utility (set_rules rs s) n1 = Some t /\
    utility (set_rules rs s) n = Some (if qlearn (sp s) then round4 (u + qalpha (sp s) * (t - u)) else u).
Proof. exact again_utility. Qed.
Print Assumptions C78_step.

(** Full statement: after some number of creations the utility is the first parent's.  Missing:
    the last 1/(20000 alpha), because utilities are rounded (see the refutation).  Proved: after [k]
    creations the distance has shrunk by the factor (1 - alpha)^k, up to this remainder; and
    with utilities of at most four decimals it never goes past the parent's or away from it. *)
Theorem C78_approaches_partial : forall n1 n2 n k s s' u t,
  created_times n1 n2 n k s s' -> qlearn (sp s) = true -> 0 <= qalpha (sp s) <= 1 ->
  utility s n = Some u -> utility s n1 = Some t ->
  sp s' = sp s /\ utility s' n1 = Some t /\
  exists u', utility s' n = Some u' /\
    qalpha (sp s) * Qabs (u' - t) <= qalpha (sp s) * qpow (1 - qalpha (sp s)) k * Qabs (u - t) + (1 # 20000) /\
    (four_decimals t -> four_decimals u -> four_decimals u' /\ ((u <= u' <= t) \/ (t <= u' <= u))).
Proof. exact times_utility. Qed.
Print Assumptions C78_approaches_partial.

(** A utility of 4.9998 stays there however often the rule is created again, though its parent's is 5. *)
Theorem C78_reached_refuted : exists n1 n2 n s u t,
  qlearn (sp s) = true /\ 0 < qalpha (sp s) <= 1 /\ utility s n = Some u /\ utility s n1 = Some t /\ ~ u == t /\
  forall k, created_times n1 n2 n k s s.
Proof. exact never_reached. Qed.
Print Assumptions C78_reached_refuted.

(** From 1 towards 5 with alpha 0.2: 1.8. *)
Example C78_used : exists s', created_again "one" "two" "one and two" (ax_state 1) s' /\
  utility (ax_state 1) "one and two" = Some 1 /\ utility (ax_state 1) "one" = Some 5 /\
  utility s' "one and two" = Some (18000 # 10000).
Proof. exact again_used. Qed.
