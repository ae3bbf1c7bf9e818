(** Simulations that are run and stepped through, for the examples and counterexamples about run() and step(). *)
From Verif Require Import Base BaseFacts Chunks DecMem DecMemFacts Buffers Productions ProdSpec ProdFacts ProdWitness Sim SimWitness Compile CompileSpec CompileFacts CompileWitness Run RunSpec RunFacts.
Local Open Scope string_scope.

Fixpoint loop_exec (O : oracle) (u : Z) (n : nat) (S : sim) : option sim :=
  match n with
  | O => None
  | Datatypes.S n' =>
      match dead S with
      | Some _ => Some S
      | None => if reached u S then Some S else match sim_step O S with Some S1 => loop_exec O u n' S1 | None => None end
      end
  end.
Lemma loop_exec_ok O u n : forall S S', loop_exec O u n S = Some S' -> loop O u S S'.
Proof.
  induction n as [|n IH]; intros S S' H; cbn [loop_exec] in H; [discriminate|]. destruct (dead S) as [t|] eqn:D; [injection H as <-; eapply loop_dead; eauto|].
  destruct (reached u S) eqn:R; [injection H as <-; apply loop_stop; assumption|]. destruct (sim_step O S) as [S1|] eqn:E; [|discriminate].
  eapply loop_step; eauto.
Qed.
Definition run_exec (O : oracle) (u : Z) (n : nat) (S : sim) : option (sim * call) :=
  if Z.leb u (now S) then Some (S, Raises (TExn EValue))
  else match loop_exec O u n S with
       | Some S1 => match dead S1 with Some t => Some (S1, Raises t) | None => Some (at_end O (set_now u S1)) end
       | None => None
       end.
Lemma run_exec_ok O u n S r : run_exec O u n S = Some r -> run O u S r.
Proof.
  unfold run_exec. destruct (Z.leb u (now S)) eqn:L; [intros [= <-]; apply run_late, Z.leb_le, L|]. apply Z.leb_gt in L.
  destruct (loop_exec O u n S) as [S1|] eqn:E; [|discriminate]. apply loop_exec_ok in E. destruct (dead S1) as [t|] eqn:D; intros [= <-].
  - apply run_raises; assumption.
  - apply run_returns; assumption.
Qed.
Fixpoint drain_exec (O : oracle) (n : nat) (S : sim) : option sim :=
  match n with
  | O => None
  | Datatypes.S n' =>
      match dead S, todo S with
      | Some _, _ => Some S
      | None, [] => Some S
      | None, _ => match sim_step O S with Some S1 => drain_exec O n' S1 | None => None end
      end
  end.
Lemma drain_exec_ok O n : forall S S', drain_exec O n S = Some S' -> drain O S S'.
Proof.
  induction n as [|n IH]; intros S S' H; cbn [drain_exec] in H; [discriminate|]. destruct (dead S) as [t|] eqn:D; [injection H as <-; eapply drain_dead; eauto|].
  destruct (todo S) as [|w l] eqn:T; [injection H as <-; apply drain_done; assumption|]. destruct (sim_step O S) as [S1|] eqn:E; [|discriminate].
  eapply drain_step; eauto. rewrite T. discriminate.
Qed.
Definition tick_exec (O : oracle) (n : nat) (S : sim) : option sim :=
  match todo S with [] => match sim_step O S with Some S1 => drain_exec O n S1 | None => None end | _ => None end.
Lemma tick_exec_ok O n S S' : tick_exec O n S = Some S' -> tick O S S'.
Proof.
  unfold tick_exec. destruct (todo S) as [|] eqn:T; [|discriminate]. destruct (sim_step O S) as [S1|] eqn:E; [|discriminate].
  intros D. exists S1. repeat split; auto. eapply drain_exec_ok; eauto.
Qed.
(** [m]: steps of simpy in one step(). *)
Fixpoint step_exec (O : oracle) (n m : nat) (l : option event) (S : sim) : option (sim * option event * call) :=
  match m with
  | O => None
  | Datatypes.S m' =>
      match dead S, todo S, peek S with
      | None, [], None => Some (S, l, EmptySchedule)
      | None, [], Some _ =>
          match tick_exec O n S with
          | None => None
          | Some S1 =>
              match dead S1 with
              | Some t => Some (S1, l, Raises t)
              | None => match news l S1 with
                        | Some e => Some (S1, Some e, Returns)
                        | None => match at_end O S1 with
                                  | (S2, Returns) => step_exec O n m' l S2
                                  | (S2, Raises t) => Some (S2, l, Raises t)
                                  | _ => None
                                  end
                        end
              end
          end
      | _, _, _ => None
      end
  end.
Lemma step_exec_ok O n m l : forall S r, step_exec O n m l S = Some r -> step_ O l S r.
Proof.
  induction m as [|m IH]; intros S r H; cbn [step_exec] in H; [discriminate|]. destruct (dead S) as [|] eqn:D; [discriminate|].
  destruct (todo S) as [|] eqn:T; [|discriminate]. destruct (peek S) as [u|] eqn:P; [|injection H as <-; apply step_empty; assumption].
  destruct (tick_exec O n S) as [S1|] eqn:K; [|discriminate]. apply tick_exec_ok in K. destruct (dead S1) as [t|] eqn:D1; [injection H as <-; apply step_raises; assumption|].
  destruct (news l S1) as [e|] eqn:N; [injection H as <-; apply step_shows; assumption|]. destruct (at_end O S1) as [S2 c] eqn:E. destruct c as [|t|]; [|injection H as <-|discriminate].
  - eapply step_more; eauto.
  - eapply step_compile; eauto.
Qed.

(** Three rules that fire one after the other; then nothing is left to do. *)
Definition rw_rule (p q : string) : rule := MkRule [("=g", CChunk (task None None (c_ p)))] [("=g", CChunk (task None None (c_ q)))] 5 None.
Definition rw_rules : dict rule := [("one", rw_rule "start" "next"); ("two", rw_rule "next" "done"); ("three", rw_rule "done" "end")].
Definition rw_state (compiling : bool) : st :=
  MkSt (MkPar false 0 (5 # 100) true (1 # 2) true compiling true) (cw_world cw_goal)
    [("g", 0%nat); ("retrieval", 1%nat); ("visual_location", 2%nat)] [("decmem", 0%nat)] [wx_mod; wx_mod; wx_mod] false [] nobind
    rw_rules (initial_order rw_rules) [] [] 0 [] None cw_vals cw_vals None None (MkScr None []).
Notation rw_init c := (sim_init 0 (rw_state c) None).
Definition sim_of (o : option (sim * call)) : sim := match o with Some (x, _) => x | None => rw_init false end.
(** After run(u). *)
Definition rw_run (u : Z) (S : sim) : sim := sim_of (run_exec cw_oracle u 1000 S).
Definition util_of (n : string) (S : sim) : option Q := match dget (srules (ss S)) n with Some r => Some (Qred (rutil r)) | None => None end.

Definition call_of (o : option (sim * call)) : call := match o with Some (_, c) => c | None => EmptySchedule end.
Lemma sim_of_ok u n S : call_of (run_exec cw_oracle u n S) = Returns -> run cw_oracle u S (sim_of (run_exec cw_oracle u n S), Returns).
Proof.
  intros H. apply (run_exec_ok _ _ n). destruct (run_exec cw_oracle u n S) as [[S1 c]|]; cbn [call_of sim_of] in *; [rewrite H; reflexivity|discriminate].
Qed.
Lemma rw_run_ok u S : call_of (run_exec cw_oracle u 1000 S) = Returns -> run cw_oracle u S (rw_run u S, Returns).
Proof. exact (sim_of_ok u 1000 S). Qed.
(** After [k] calls of step(). *)
Fixpoint rw_steps (k : nat) (l : option event) (S : sim) : list event * (sim * option event * call) :=
  match k with
  | O => ([], (S, l, Returns))
  | Datatypes.S k' =>
      match step_exec cw_oracle 1000 1000 l S with
      | Some (S1, Some e, Returns) => let (es, r) := rw_steps k' (Some e) S1 in (e :: es, r)
      | Some (S1, l1, c) => ([], (S1, l1, c))
      | None => ([], (S, l, Raises TRuntime))
      end
  end.
Fixpoint rw_steps_good (k : nat) (l : option event) (S : sim) : bool :=
  match k with
  | O => true
  | Datatypes.S k' =>
      match step_exec cw_oracle 1000 1000 l S with
      | Some (S1, Some e, Returns) => rw_steps_good k' (Some e) S1
      | Some (_, None, Returns) => false
      | Some _ => true
      | None => false
      end
  end.
Lemma rw_steps_ok k : forall l S, rw_steps_good k l S = true -> steps_ cw_oracle k l S (fst (rw_steps k l S)) (snd (rw_steps k l S)).
Proof.
  induction k as [|k IH]; intros l S H; cbn [rw_steps rw_steps_good] in *; [constructor|].
  destruct (step_exec cw_oracle 1000 1000 l S) as [[[S1 l1] c]|] eqn:E; [|discriminate]. apply step_exec_ok in E.
  destruct l1 as [e|]; destruct c as [|t|]; try discriminate; try (eapply steps_fails; [exact E|discriminate]).
  pose proof (IH _ _ H) as K. destruct (rw_steps k (Some e) S1) as [es r]. eapply steps_one; [exact E|exact K].
Qed.

Lemma rw_session c : session cw_oracle 0 (rw_state c) None (rw_init c) None.
Proof. constructor. Qed.
Lemma run_state O u S S1 S2 c1 c2 : run O u S (S1, c1) -> run O u S (S2, c2) -> S1 = S2.
Proof. intros A B. pose proof (run_fun _ _ _ _ _ A B). congruence. Qed.
Lemma pieces_refuted : ~ (forall O t s env S l u1 u2 S1, session O t s env S l -> (u1 < u2)%Z -> run O u1 S (S1, Returns) ->
  forall r, run O u2 S1 r <-> run O u2 S r).
Proof.
  intros H. assert (R1 : run cw_oracle 10000 (rw_init true) (rw_run 10000 (rw_init true), Returns)) by (apply rw_run_ok; vm_compute; reflexivity).
  assert (R2 : run cw_oracle 20000 (rw_run 10000 (rw_init true)) (rw_run 20000 (rw_run 10000 (rw_init true)), Returns)) by (apply rw_run_ok; vm_compute; reflexivity).
  assert (R3 : run cw_oracle 20000 (rw_init true) (rw_run 20000 (rw_init true), Returns)) by (apply rw_run_ok; vm_compute; reflexivity).
  apply (H _ _ _ _ _ _ 10000%Z 20000%Z _ (rw_session true) ltac:(reflexivity) R1) in R2. pose proof (run_state _ _ _ _ _ _ _ R2 R3) as E.
  assert (N : util_of "two and three" (rw_run 20000 (rw_run 10000 (rw_init true))) <> util_of "two and three" (rw_run 20000 (rw_init true))) by (vm_compute; discriminate).
  apply N. rewrite E. reflexivity.
Qed.
Lemma pieces_used : run cw_oracle 700 (rw_run 500 (rw_init true)) (rw_run 700 (rw_init true), Returns) /\ map ewhat (trace_of (rw_run 500 (rw_init true))) = [WConflict; WSelected "one"].
Proof.
  split; [|vm_compute; reflexivity].
  apply (session_pieces cw_oracle 0 (rw_state true) None (rw_init true) None 500 700 (rw_run 500 (rw_init true)) (rw_session true) ltac:(reflexivity)).
  - apply rw_run_ok. vm_compute. reflexivity.
  - left. vm_compute. discriminate.
  - apply rw_run_ok. vm_compute. reflexivity.
Qed.
Lemma raises_ok u n S t : call_of (run_exec cw_oracle u n S) = Raises t -> run cw_oracle u S (sim_of (run_exec cw_oracle u n S), Raises t).
Proof.
  intros H. apply (run_exec_ok _ _ n). destruct (run_exec cw_oracle u n S) as [[S1 c]|]; cbn [call_of sim_of] in *; [rewrite H; reflexivity|discriminate].
Qed.
Lemma exception_used : exists S1, run cw_oracle 20000 (cw_init failed_rules cw_goal) (S1, Raises (TExn EType)) /\ dead S1 = Some (TExn EType).
Proof.
  exists (sim_of (run_exec cw_oracle 20000 2000 (cw_init failed_rules cw_goal))). split; [apply raises_ok|]; vm_compute; reflexivity.
Qed.
Lemma idle_used : session cw_oracle 0 (rw_state false) None (rw_run 10000 (rw_init false)) None /\ heap (rw_run 10000 (rw_init false)) = [] /\
  now (rw_run 10000 (rw_init false)) = 10000%Z /\ List.length (trace_of (rw_run 10000 (rw_init false))) = 14%nat.
Proof.
  split; [|vm_compute; repeat split; reflexivity]. eapply session_run; [apply rw_session|]. apply rw_run_ok. vm_compute. reflexivity.
Qed.
Lemma run_used : run cw_oracle 500 (rw_init true) (rw_run 500 (rw_init true), Returns) /\ run cw_oracle 501 (rw_run 500 (rw_init true)) (rw_run 501 (rw_run 500 (rw_init true)), Returns) /\
  run cw_oracle 500 (rw_run 500 (rw_init true)) (rw_run 500 (rw_init true), Raises (TExn EValue)) /\
  List.length (trace_of (rw_run 500 (rw_init true))) = 2%nat /\ List.length (trace_of (rw_run 501 (rw_run 500 (rw_init true)))) = 6%nat.
Proof.
  split; [apply rw_run_ok; vm_compute; reflexivity|]. split; [apply rw_run_ok; vm_compute; reflexivity|].
  split; [apply run_late; vm_compute; discriminate|]. split; vm_compute; reflexivity.
Qed.
Lemma steps_used :
  (let '(es, (x, l, c)) := rw_steps 3 None (rw_init true) in steps_ cw_oracle 3 None (rw_init true) es (x, l, c) /\ c = Returns /\ map ewhat es = [WConflict; WSelected "one"; WFired "one"]) /\
  (let '(es, (x, l, c)) := rw_steps 99 None (rw_init true) in steps_ cw_oracle 99 None (rw_init true) es (x, l, c) /\ c = EmptySchedule /\ List.length es = 15%nat).
Proof.
  split.
  - pose proof (rw_steps_ok 3 None (rw_init true) ltac:(vm_compute; reflexivity)) as H.
    assert (E : let '(es, (_, _, c)) := rw_steps 3 None (rw_init true) in c = Returns /\ map ewhat es = [WConflict; WSelected "one"; WFired "one"]) by (vm_compute; split; reflexivity).
    destruct (rw_steps 3 None (rw_init true)) as [es [[S l] c]]. split; [exact H|exact E].
  - pose proof (rw_steps_ok 99 None (rw_init true) ltac:(vm_compute; reflexivity)) as H.
    assert (E : let '(es, (_, _, c)) := rw_steps 99 None (rw_init true) in c = EmptySchedule /\ List.length es = 15%nat) by (vm_compute; split; reflexivity).
    destruct (rw_steps 99 None (rw_init true)) as [es [[S l] c]]. split; [exact H|exact E].
Qed.
(** The state after one step of the simulation [S], when [l] was shown last. *)
Definition rw_step (l : option event) (S : sim) : sim * option event * call :=
  match step_exec cw_oracle 1000 1000 l S with Some r => r | None => (S, l, Raises TRuntime) end.
Definition is_raise (c : call) : bool := match c with Raises TRuntime => true | _ => false end.
Lemma step_exec_ok' n m l S : let r := match step_exec cw_oracle n m l S with Some r => r | None => (S, l, Raises TRuntime) end in is_raise (snd r) = false -> step_ cw_oracle l S r.
Proof. cbv zeta. intros H. apply (step_exec_ok _ n m). destruct (step_exec cw_oracle n m l S); [reflexivity|discriminate]. Qed.
Lemma rw_step_ok l S : is_raise (snd (rw_step l S)) = false -> step_ cw_oracle l S (rw_step l S).
Proof. exact (step_exec_ok' 1000 1000 l S). Qed.
Lemma step_used : match rw_step None (rw_init true) with
  | (x, l, Returns) => session cw_oracle 0 (rw_state true) None x l /\ current_event x = l /\ l <> None
  | _ => False
  end.
Proof.
  pose proof (rw_step_ok None (rw_init true) ltac:(vm_compute; reflexivity)) as H.
  assert (E : match rw_step None (rw_init true) with (x, l, Returns) => current_event x = l /\ l <> None | _ => False end) by (vm_compute; split; [reflexivity|discriminate]).
  destruct (rw_step None (rw_init true)) as [[S l] c]. destruct c; try contradiction. split; [|exact E]. eapply session_step; [apply rw_session|exact H].
Qed.
Lemma step_refuted :
  ~ (forall O t s env S l r, session O t s env S l -> step_ O l S r -> snd r <> EmptySchedule) /\
  ~ (forall O t s env S l S' l', session O t s env S l -> step_ O l S (S', l', Returns) -> trace_of S' <> trace_of S).
Proof.
  split; intros H.
  - assert (R : session cw_oracle 0 (rw_state false) None (rw_run 10000 (rw_init false)) None) by apply idle_used.
    apply (H _ _ _ _ _ _ _ R (step_empty _ _ (rw_run 10000 (rw_init false)) ltac:(vm_compute; reflexivity) ltac:(vm_compute; reflexivity) ltac:(vm_compute; reflexivity))). reflexivity.
  - assert (R : session cw_oracle 0 (rw_state true) None (rw_run 500 (rw_init true)) None) by (eapply session_run; [apply rw_session|]; apply rw_run_ok; vm_compute; reflexivity).
    pose proof (rw_step_ok None (rw_run 500 (rw_init true)) ltac:(vm_compute; reflexivity)) as K.
    assert (E : match rw_step None (rw_run 500 (rw_init true)) with (x, l, Returns) => trace_of x = trace_of (rw_run 500 (rw_init true)) | _ => False end) by (vm_compute; reflexivity).
    destruct (rw_step None (rw_run 500 (rw_init true))) as [[S l] c]. destruct c; try contradiction. exact (H _ _ _ _ _ _ _ _ R K E).
Qed.
