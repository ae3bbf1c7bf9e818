(** A simulation that is driven in two ways. *)
From Verif Require Import Base BaseFacts Chunks DecMem Buffers Productions ProdSpec Sim SimSpec Compile CompileSpec CompileFacts CompileWitness Run RunSpec RunFacts RunWitness RulesSpec.
Local Open Scope string_scope.
Local Open Scope list_scope.

Definition stepped (l : option event) (S : sim) : sim * option event * bool :=
  match step_exec cw_oracle 1000 1000 l S with Some (X, l', Returns) => (X, l', true) | _ => (S, l, false) end.
Lemma stepped_ok l S : snd (stepped l S) = true -> step_ cw_oracle l S (fst (fst (stepped l S)), snd (fst (stepped l S)), Returns).
Proof.
  unfold stepped. destruct (step_exec cw_oracle 1000 1000 l S) as [[[X l'] c]|] eqn:E; [|discriminate]. destruct c; [|discriminate..]. intros _. exact (step_exec_ok _ _ _ _ _ _ E).
Qed.
(** One call of step() and then run(700); run(500) and then run(700). *)
Definition way1 : sim := fst (fst (stepped None (rw_init true))).
Definition way2 : sim := rw_run 500 (rw_init true).
Lemma two_ways : (exists l, session cw_oracle 0 (rw_state true) None way1 l) /\ session cw_oracle 0 (rw_state true) None way2 None /\
  run cw_oracle 700 way1 (rw_run 700 way1, Returns) /\ run cw_oracle 700 way2 (rw_run 700 way2, Returns) /\ log way1 <> log way2 /\ List.length (log way1) <> List.length (log (rw_run 700 way1)).
Proof.
  split; [eexists; eapply session_step; [apply rw_session|apply stepped_ok; vm_compute; reflexivity]|].
  split; [eapply session_run; [apply rw_session|apply rw_run_ok; vm_compute; reflexivity]|].
  split; [apply rw_run_ok; vm_compute; reflexivity|]. split; [apply rw_run_ok; vm_compute; reflexivity|].
  split; [|vm_compute; discriminate]. intros E. apply (f_equal (@List.length _)) in E. revert E. vm_compute. discriminate.
Qed.

(** A simulation that ends by an exception. *)
Definition ended_by (o : option (sim * call)) : sim * bool :=
  match o with Some (X, Raises (TExn EType)) => (X, match dead X with Some (TExn EType) => true | _ => false end) | Some (X, _) => (X, false) | None => (rw_init false, false) end.
Lemma ended_ok u S : snd (ended_by (run_exec cw_oracle u 1000 S)) = true ->
  run cw_oracle u S (fst (ended_by (run_exec cw_oracle u 1000 S)), Raises (TExn EType)) /\ dead (fst (ended_by (run_exec cw_oracle u 1000 S))) = Some (TExn EType).
Proof.
  destruct (run_exec cw_oracle u 1000 S) as [[X c]|] eqn:E; [|discriminate]. unfold ended_by. destruct c as [|[[]| |]|]; try discriminate. cbn [fst snd].
  destruct (dead X) as [[[]| |]|]; try discriminate. intros _. split; [exact (run_exec_ok _ _ _ _ _ E)|reflexivity].
Qed.
Definition broken : sim := fst (ended_by (run_exec cw_oracle 20000 1000 (cw_init failed_rules cw_goal))).
Lemma two_ends : left_by cw_oracle 0 (cw_state failed_rules cw_goal) None broken /\ left_by cw_oracle 0 (cw_state failed_rules cw_goal) None (rw_run 400 (cw_init failed_rules cw_goal)) /\
  dead broken = Some (TExn EType) /\ Nat.ltb (List.length (log (rw_run 400 (cw_init failed_rules cw_goal)))) (List.length (log broken)) = true.
Proof.
  destruct (ended_ok 20000 (cw_init failed_rules cw_goal)) as [R D]; [vm_compute; reflexivity|].
  split; [exact (left_run _ _ _ _ _ _ _ _ _ (session_start _ _ _ _) R)|]. split; [|split; [exact D|vm_compute; reflexivity]].
  eapply left_session. eapply session_run; [apply session_start|]. apply rw_run_ok. vm_compute. reflexivity.
Qed.
