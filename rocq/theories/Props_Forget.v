(** Property theorems about removing chunks from declarative memory: C102. *)
From Verif Require Import BaseFacts Chunks ChunkSpec DecMem DecMemFacts Forget ForgetSpec ForgetFacts.
Local Open Scope string_scope.

(** ** C102 *)

(** After any history, a removal takes exactly the chunks equal to the given one, and raises
    KeyError only if there is none. *)
Theorem C102_removed : forall ops c,
  Forall dm_op_ok ops ->
  match dm_del (dm_runs ops) c with
  | Some m' => forall d, dm_times m' d = if chunk_eqb nobind c d then None else dm_times (dm_runs ops) d
  | None => dm_times (dm_runs ops) c = None
  end.
Proof. exact del_exact. Qed.
Print Assumptions C102_removed.

(** Full statement: the count used for the strength of association from [j] is one plus the
    number of slots in memory that hold [j], after every history.  Missing: it is never less,
    but it may be more by the slots that were removed after [j] was first asked for. *)
Theorem C102_count_bounds_partial : forall ops j i r oc n k,
  Forall dm_op_ok ops -> source j -> snd (strength (dm_runs ops) j i r oc) = Some (n, k) ->
  (S (holding r j (dm_runs ops)) <= n
   <= S (holding r j (dm_runs ops) + lost (holding r j) j ops dm_empty false))%nat.
Proof. exact count_bounds. Qed.
Print Assumptions C102_count_bounds_partial.

(** It is exact if nothing is removed once [j] has been asked for. *)
Theorem C102_count_exact_partial : forall ops1 ops2 j i r oc n k,
  Forall dm_op_ok (ops1 ++ ops2) -> source j ->
  (forall o, In o ops1 -> asks j o = false) -> (forall o, In o ops2 -> removes o = false) ->
  snd (strength (dm_runs (ops1 ++ ops2)) j i r oc) = Some (n, k) ->
  n = S (holding r j (dm_runs (ops1 ++ ops2))).
Proof. exact count_exact. Qed.
Print Assumptions C102_count_exact_partial.

Theorem C102_count_refuted : exists ops j i n k,
  Forall dm_op_ok ops /\ source j /\
  snd (strength (dm_runs ops) j i None false) = Some (n, k) /\ n <> S (fan (dm_runs ops) j).
Proof. exact count_stale. Qed.
Print Assumptions C102_count_refuted.

(** Three red things, asked for and then two of them removed: one is left, the count stays four,
    and the bound is reached; in the other order the count is right. *)
Example C102_used :
  Forall dm_op_ok fx_ops /\ dm_times (dm_runs fx_ops) (fx_red "b") = None /\
  dm_mem (dm_runs fx_ops) (fx_red "a") = true /\
  dm_del (dm_runs fx_ops) (fx_red "b") = None /\
  holding None (VStr "red") (dm_runs fx_ops) = 1%nat /\
  lost (holding None (VStr "red")) (VStr "red") fx_ops dm_empty false = 2%nat /\
  let before := [Did (MAdd (fx_red "a") 0); Did (MAdd (fx_red "b") 0); Del (fx_red "b")] in
  let after := [Did (MStrength (VStr "red") (fx_red "a") None false); Did (MAdd (fx_red "d") 1)] in
  (forall o, In o before -> asks (VStr "red") o = false) /\ (forall o, In o after -> removes o = false) /\
  snd (strength (dm_runs (before ++ after)) (VStr "red") (fx_red "a") None false) = Some (3%nat, 1%nat).
Proof.
  split; [exact fx_ops_ok|]. split; [reflexivity|]. split; [reflexivity|]. split; [reflexivity|].
  split; [reflexivity|]. split; [vm_compute; reflexivity|]. cbv zeta. split; [|split; [|reflexivity]].
  - intros o [<-|[<-|[<-|[]]]]; reflexivity.
  - intros o [<-|[<-|[]]]; reflexivity.
Qed.
