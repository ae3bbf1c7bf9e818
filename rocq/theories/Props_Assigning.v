(** Property theorems about assigning rules to names, copying and deleting them: C116. *)
From Verif Require Import Base BaseFacts Strings Signatures Defining Assigning AssigningFacts.
Local Open Scope string_scope.
Local Open Scope list_scope.

(** productions[n] = productions[m] gives n the rule of m with its utility and its reward, and touches no other name. *)
Theorem C116_copy : forall d n m e, dget d m = Some e ->
  exists d', do_edit d (ECopy n m) = (d', Ok tt) /\ dget d' n = Some e /\ dget d' m = Some e /\ forall k, k <> n -> dget d' k = dget d k.
Proof. exact copy_exact. Qed.
Print Assumptions C116_copy.
(** del productions[n] removes this rule only and keeps the order of the others. *)
Theorem C116_delete : forall d n e, dget d n = Some e ->
  exists d', do_edit d (EDelete n) = (d', Ok tt) /\ dget d' n = None /\ (forall k, k <> n -> dget d' k = dget d k) /\
             dkeys d' = filter (fun k => negb (String.eqb k n)) (dkeys d).
Proof. exact delete_exact. Qed.
Print Assumptions C116_delete.
(** Deleting a rule that does not exist is a KeyError, copying one is a TypeError. *)
Theorem C116_missing : forall d n k, dget d n = None -> do_edit d (EDelete n) = (d, Err EKey) /\ do_edit d (ECopy k n) = (d, Err EType).
Proof. exact missing. Qed.
Print Assumptions C116_missing.
(** A statement that fails leaves the rules as they were. *)
Theorem C116_failed : forall d c d' x, do_edit d c = (d', Err x) -> d' = d.
Proof. exact failed_edit. Qed.
Print Assumptions C116_failed.
(** Over any sequence of such statements, some of which may fail: every rule, with its utility and reward, was there at the beginning or is one that was assigned. *)
Theorem C116_genuine : forall l d n e, dget (edit_all d l) n = Some e -> (exists k, dget d k = Some e) \/ (exists k, In (EAssign k (as_mapping e)) l).
Proof. exact edits_source. Qed.
Print Assumptions C116_genuine.
(** Over any sequence, a rule whose name is not the target of any statement stays as it was. *)
Theorem C116_others : forall l d n, Forall (fun c => about c <> n) l -> dget (edit_all d l) n = dget d n.
Proof. exact edits_spare. Qed.
Print Assumptions C116_others.

Definition ax_rule : entry := (BString ([], []), Some 2%Q, Some 5%Q).
Definition ax_other : entry := (BString ([], []), Some 0%Q, None).
Definition ax_start : dict entry := [("a", ax_rule); ("b", ax_other)].
(** A copy, a copy of nothing, an incomplete mapping, the deletion of the original, and an assignment that puts it at the end. *)
Definition ax_edits : list edit :=
  [ECopy "c" "a"; ECopy "d" "none"; EAssign "b" {| m_rule := Some (BString ([], [])); m_utility := None; m_reward := None; m_more := false |}; EDelete "a"; EDelete "a"; EAssign "a" (as_mapping ax_other)].
Example C116_example : edit_all ax_start ax_edits = [("b", ax_other); ("c", ax_rule); ("a", ax_other)] /\ Forall (fun c => about c <> "e") ax_edits /\
  dget ax_start "a" = Some ax_rule /\ dget ax_start "none" = None /\ snd (do_edit ax_start (EDelete "none")) = Err EKey.
Proof. split; [reflexivity|]. split; [repeat (constructor; [discriminate|]); constructor|]. repeat split. Qed.
