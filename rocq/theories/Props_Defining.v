(** Property theorems about the rules that a model has after several calls: C114. *)
From Verif Require Import Base BaseFacts Strings StringWitness Signatures SignatureSpec SignatureFacts Defining DefiningSpec DefiningFacts.
Local Open Scope string_scope.
Local Open Scope list_scope.

(** Full statement: a rule stays in the model until a rule of the same name is defined.  This is false: set_productions drops all
    rules that were defined before, also those written as strings. *)
Theorem C114_rules_stay_refuted : exists d n e c d', dget d n = Some e /\ define d c = (d', Ok tt) /\ (forall e', ~ gives c n e') /\ dget d' n = None.
Proof.
  exists [("old", (BFunction sx_two, None, None))], "old", (BFunction sx_two, None, None), (DFunctions [sx_one]). eexists. split; [reflexivity|]. split; [reflexivity|]. split; [|reflexivity].
  intros e' [(? & ? & ? & ? & [=] & _)|(_ & fs & f & u & r & [= <-] & (l1 & l2 & E & N & _) & _)].
  destruct l1 as [|x l1]; cbn in E; injection E as <- E; [discriminate N|destruct l1; discriminate E].
Qed.
Print Assumptions C114_rules_stay_refuted.

(** What holds, for every sequence of calls, some of which may fail: the rule called n is the one that the last call gave this name, if there was no
    successful set_productions since then; it is the one that was there at the beginning if all calls spare it. *)
Theorem C114_exactly_partial : forall l d n e, Forall plain_call l ->
  (dget (define_all d l) n = Some e <->
   (exists l1 c l2, l = l1 ++ c :: l2 /\ gives c n e /\ Forall (fun c' => spares c' n) l2) \/ (Forall (fun c' => spares c' n) l /\ dget d n = Some e)).
Proof. exact defined_exactly. Qed.
Print Assumptions C114_exactly_partial.
(** A call that fails leaves the rules as they were. *)
Theorem C114_failed : forall d c d' x, define d c = (d', Err x) -> d' = d.
Proof. exact failed_definition. Qed.
Print Assumptions C114_failed.
(** Rules written as strings are added at the end, in the order in which their names are used first; defining one again does not move it.
    (For functions see C106_order.) *)
Theorem C114_order_partial : forall l d, Forall (fun c => exists n s u r, c = DString n s u r) l ->
  dkeys (define_all d l) = dkeys d ++ firsts (dkeys d) (flat_map string_name l).
Proof. exact strings_order. Qed.
Print Assumptions C114_order_partial.

(** Two functions, a string, a string that cannot be read, and a string that takes the name of the first function. *)
Definition dx_calls : list defcall :=
  [DFunctions [sx_one; sx_two]; DString "three" "=g> isa fact ==> ~g>" (Some 1%Q) None; DString "two" "no rule" None None; DFunctions [sx_bad]; DString "one" "=g> isa fact ==> ~g>" None None].
Example C114_example : Forall plain_call dx_calls /\ dkeys (define_all [] dx_calls) = ["one"; "two"; "three"] /\
  (exists x, dget (define_all [] dx_calls) "one" = Some (BString x, None, None)) /\ dget (define_all [] dx_calls) "two" = Some (BFunction sx_two, Some 0%Q, None).
Proof.
  split; [repeat (constructor; try exact I; try exact plain_one; try exact plain_two; try exact plain_bad)|].
  split; [vm_compute; reflexivity|]. split; [eexists; vm_compute; reflexivity|vm_compute; reflexivity].
Qed.
