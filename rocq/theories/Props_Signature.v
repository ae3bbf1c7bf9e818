(** Rules written as functions.  Every theorem is proved in SignatureFacts.v. *)
From Verif Require Import Base Signatures SignatureSpec SignatureFacts.
Local Open Scope string_scope.

(** ** C106 *)

(** Full statement: the utility of a rule is the default of the parameter called utility, if there is one.  False of
    parameters after a star: the default is ignored. *)
Theorem C106_keyword_only_refuted : exists f v, written_well f /\ says f "utility" v /\ forall old d r, set_productions old [f] = (d, Ok tt) -> dget d (fname f) = Some (v, r) -> False.
Proof. exact star_lost. Qed.
Print Assumptions C106_keyword_only_refuted.
(** Without such parameters: the rules are the last functions of each name, with exactly the utility and the reward that
    they say, whatever other parameters there are; and 0 and None if they say nothing. *)
Theorem C106_exactly_partial : forall old fs d, Forall plainly fs -> set_productions old fs = (d, Ok tt) ->
  forall n u r, dget d n = Some (u, r) <-> exists f, last_called fs n f /\ means f "utility" (Some 0%Q) u /\ means f "reward" None r.
Proof. exact loaded_exactly. Qed.
Print Assumptions C106_exactly_partial.
(** The call fails exactly when a parameter called utility or reward has no default. *)
Theorem C106_fails_partial : forall old fs, Forall plainly fs ->
  (exists d, set_productions old fs = (d, Ok tt)) <-> forall f, In f fs -> ~ demands f "utility" /\ ~ demands f "reward".
Proof. exact loads_iff. Qed.
Print Assumptions C106_fails_partial.
(** A call that fails leaves the model with the rules that it had. *)
Theorem C106_failed : forall old fs d e, set_productions old fs = (d, Err e) -> d = old.
Proof. exact failed_load. Qed.
Print Assumptions C106_failed.
(** The rules are in the order of the functions. *)
Theorem C106_order : forall old fs d, NoDup (map fname fs) -> set_productions old fs = (d, Ok tt) -> dkeys d = map fname fs.
Proof. exact loaded_order. Qed.
Print Assumptions C106_order.
(** def one(utility=5, reward=2), def two(x, reward=None, y=7), def bad(utility, reward=2). *)
Example C106_used : Forall plainly [sx_one; sx_two] /\ set_productions [("old", (None, None))] [sx_one; sx_two] = ([("one", (Some 5%Q, Some 2%Q)); ("two", (Some 0%Q, None))], Ok tt) /\
  plainly sx_bad /\ demands sx_bad "utility" /\ set_productions [("old", (None, None))] [sx_one; sx_bad] = ([("old", (None, None))], Err EIndex).
Proof. exact signatures_used. Qed.
