(** Simulations for the examples about the scheduling. *)
From Verif Require Import Base BaseFacts Chunks DecMem DecMemFacts Buffers Productions ProdSpec ProdFacts ProdWitness Sim SimWitness Compile CompileSpec CompileFacts CompileWitness Run RunSpec RunFacts RunWitness SafeSpec.
Local Open Scope string_scope.

Fixpoint distinct (l : list string) : bool := match l with [] => true | x :: l' => negb (existsb (String.eqb x) l') && distinct l' end.
Lemma distinct_ok l : distinct l = true -> NoDup l.
Proof.
  induction l as [|x l IH]; [constructor|]. cbn [distinct]. rewrite andb_true_iff, negb_true_iff. intros [A B]. constructor; [|exact (IH B)]. intros H.
  assert (E : existsb (String.eqb x) l = true) by (apply existsb_exists; exists x; split; [exact H|apply String.eqb_refl]). congruence.
Qed.
Definition names_ok (rules : dict rule) : bool := forallb (fun kr => distinct (asked_names (rrhs (snd kr)))) rules.
Lemma names_ok_spec s : names_ok (srules s) = true -> one_request s.
Proof.
  unfold one_request, names_ok. induction (srules s) as [|[k x] l IH]; [intros _ r ru; discriminate|]. cbn [forallb dget snd]. rewrite andb_true_iff. intros [A B] r ru.
  destruct (String.eqb k r); [intros [= <-]; apply distinct_ok; exact A|exact (IH B r ru)].
Qed.
Lemma vx_plain rules : plain_names (vx_state rules).
Proof. intros _ x. reflexivity. Qed.
Lemma vx_nodup rules : NoDup (dkeys (snames (vx_state rules))).
Proof. cbn. repeat constructor; cbn; intuition discriminate. Qed.
Lemma one_request_used : one_request (vx_state vx_retrieve) /\ plain_names (vx_state vx_retrieve) /\ NoDup (dkeys (snames (vx_state vx_retrieve))) /\
  sim_runs cw_oracle (vx_init vx_retrieve) (to_interrupt cw_oracle 400 (vx_init vx_retrieve)) /\
  interrupted (to_interrupt cw_oracle 400 (vx_init vx_retrieve)) = Some (2%nat, Some (Some (GExtra "retrieval"), false)) /\
  dead (sim_exec cw_oracle 400 (vx_init vx_retrieve)) = None.
Proof.
  split; [apply names_ok_spec; vm_compute; reflexivity|]. split; [apply vx_plain|]. split; [apply vx_nodup|].
  split; [exact (to_interrupt_runs cw_oracle 400 (vx_init vx_retrieve) (vx_init vx_retrieve) (sim_runs_refl cw_oracle (vx_init vx_retrieve)))|]. split; vm_compute; reflexivity.
Qed.
(** The visual module has no action of the name "fly". *)
Definition sx_rules : dict rule :=
  [("one", MkRule (wx_lhs "start") [("=g", CChunk (wx_goal "middle")); ("+visual", CChunk (MkChunk "_visual" [("cmd", plain (VStr "fly")); ("value", plain (VStr "x"))]))] 0 None)].
Lemma exception_of_module : one_request (vx_state sx_rules) /\ plain_names (vx_state sx_rules) /\ dead (sim_exec cw_oracle 400 (vx_init sx_rules)) = Some (TExn EActr).
Proof. split; [apply names_ok_spec; vm_compute; reflexivity|]. split; [apply vx_plain|]. vm_compute. reflexivity. Qed.

(** After run(u) and after step(). *)
Definition sx_run (u : Z) (S : sim) : sim := sim_of (run_exec cw_oracle u 400 S).
Definition sx_step (l : option event) (S : sim) : sim * option event * call := match step_exec cw_oracle 400 40 l S with Some r => r | None => (S, l, Returns) end.
Lemma sx_raises u S f : call_of (run_exec cw_oracle u 400 S) = Raises f -> run cw_oracle u S (sx_run u S, Raises f).
Proof.
  unfold sx_run. intros H. apply (run_exec_ok _ _ 400). destruct (run_exec cw_oracle u 400 S) as [[S1 c]|]; cbn [call_of sim_of] in *; [rewrite H; reflexivity|discriminate].
Qed.
Lemma sx_step_ok l S f : snd (sx_step l S) = Raises f -> step_ cw_oracle l S (fst (fst (sx_step l S)), snd (fst (sx_step l S)), Raises f).
Proof.
  unfold sx_step. intros H. apply (step_exec_ok _ 400 40). destruct (step_exec cw_oracle 400 40 l S) as [[[S1 l1] c]|]; cbn [fst snd] in *; [rewrite H; reflexivity|discriminate].
Qed.
Lemma run_interrupted : exists O tie s u S, compiles_with O tie /\ plain_names s /\ svars s = nobind /\ sprocs s = [] /\ NoDup (dkeys (snames s)) /\ run O u (sim_init 0 s None) (S, Raises TInterrupt).
Proof.
  exists cw_oracle, (fun _ _ => true), (vx_state dx_rules), 20000%Z, (sx_run 20000 (vx_init dx_rules)). split; [exact cw_compiles|]. split; [apply vx_plain|]. split; [reflexivity|]. split; [reflexivity|]. split; [apply vx_nodup|].
  apply sx_raises. vm_compute. reflexivity.
Qed.
Lemma run_raises_used : exists S1 S2, session cw_oracle 0 (vx_state sx_rules) None S1 None /\ now S1 = 300%Z /\ run cw_oracle 20000 S1 (S2, Raises (TExn EActr)).
Proof.
  exists (sx_run 300 (vx_init sx_rules)), (sx_run 20000 (sx_run 300 (vx_init sx_rules))). split; [|split; [vm_compute; reflexivity|apply sx_raises; vm_compute; reflexivity]].
  eapply session_run; [apply session_start|]. apply sim_of_ok. vm_compute. reflexivity.
Qed.
Lemma sx_step_returns l S : snd (sx_step l S) = Returns -> snd (fst (sx_step l S)) <> l -> step_ cw_oracle l S (fst (fst (sx_step l S)), snd (fst (sx_step l S)), Returns).
Proof.
  unfold sx_step. intros H N. apply (step_exec_ok _ 400 40). destruct (step_exec cw_oracle 400 40 l S) as [[[S1 l1] c]|]; cbn [fst snd] in *; [rewrite H; reflexivity|contradiction].
Qed.
(** After [k] calls of step(). *)
Fixpoint sx_steps (k : nat) : sim * option event :=
  match k with
  | Datatypes.O => (sx_run 300 (vx_init sx_rules), None)
  | Datatypes.S k' => let x := sx_steps k' in fst (sx_step (snd x) (fst x))
  end.
Lemma sx_steps_ok k : snd (sx_step (snd (sx_steps k)) (fst (sx_steps k))) = Returns -> snd (sx_steps (Datatypes.S k)) <> snd (sx_steps k) ->
  session cw_oracle 0 (vx_state sx_rules) None (fst (sx_steps k)) (snd (sx_steps k)) -> session cw_oracle 0 (vx_state sx_rules) None (fst (sx_steps (Datatypes.S k))) (snd (sx_steps (Datatypes.S k))).
Proof. intros H N X. eapply session_step; [exact X|]. exact (sx_step_returns _ _ H N). Qed.
Lemma step_raises_used : exists S1 l S2 l', session cw_oracle 0 (vx_state sx_rules) None S1 l /\ step_ cw_oracle l S1 (S2, l', Raises (TExn EActr)).
Proof.
  exists (fst (sx_steps 3)), (snd (sx_steps 3)). eexists _, _. split; [|apply sx_step_ok; vm_compute; reflexivity].
  apply sx_steps_ok; [vm_compute; reflexivity|vm_compute; discriminate|]. apply sx_steps_ok; [vm_compute; reflexivity|vm_compute; discriminate|]. apply sx_steps_ok; [vm_compute; reflexivity|vm_compute; discriminate|].
  eapply session_run; [apply session_start|]. apply sim_of_ok. vm_compute. reflexivity.
Qed.

(** ** The failure of a process *)

Definition raises_now (O : oracle) (S : sim) : option fault :=
  match todo S with
  | WRun p o :: l => match nth_error (prs S) p with
                     | Some r => match snd (go_on O p (pcode r) o (set_todo l S)) with inr f => Some f | inl _ => None end
                     | None => None
                     end
  | _ => None
  end.
Lemma raises_now_ok O S f : raises_now O S = Some f -> raising O S f.
Proof.
  unfold raises_now, raising. destruct (todo S) as [|[| p o |] l]; try discriminate. destruct (nth_error (prs S) p) as [r|] eqn:Hr; [|discriminate]. destruct (go_on O p (pcode r) o (set_todo l S)) as [S2 [x|f']] eqn:Hg; [discriminate|].
  cbn [snd]. intros [= <-]. exists p, o, l, r, S2. auto.
Qed.
(** The first state, of at most [n], in which the code of a process raises an exception next. *)
Fixpoint to_failure (O : oracle) (n : nat) (S : sim) : sim :=
  match n with
  | O => S
  | Datatypes.S n' => match raises_now O S with
                      | Some _ => S
                      | None => match sim_step O S with Some S' => to_failure O n' S' | None => S end
                      end
  end.
Lemma to_failure_runs O n : forall S0 S, sim_runs O S0 S -> sim_runs O S0 (to_failure O n S).
Proof.
  induction n as [|n IH]; intros S0 S H; cbn [to_failure]; [exact H|]. destruct (raises_now O S); [exact H|]. destruct (sim_step O S) as [S'|] eqn:E; [|exact H]. apply IH. eapply sim_runs_step; eauto.
Qed.
Lemma failure_used : exists S, sim_runs cw_oracle (vx_init sx_rules) S /\ raising cw_oracle S (TExn EActr) /\ dead S = None /\ dead (sim_exec cw_oracle 20 S) = Some (TExn EActr).
Proof.
  exists (to_failure cw_oracle 400 (vx_init sx_rules)). split; [apply to_failure_runs; constructor|]. split; [apply raises_now_ok; vm_compute; reflexivity|]. split; vm_compute; reflexivity.
Qed.
