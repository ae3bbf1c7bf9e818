(** Simulations that would go on for ever, and calls of run() that end. *)
From Verif Require Import Base BaseFacts Chunks DecMem Buffers Productions ProdSpec ProdWitness Environment EnvSpec EnvFacts EnvWitness Sim SimSpec SimWitness CostFacts EndInit Run RunSpec RunFacts RunWitness.
Local Open Scope string_scope.
Local Open Scope list_scope.

(** With an environment of environment.py, or none. *)
Definition usual (env : option gen) : Prop := env = None \/ exists initial stims trigs times start, env = Some (env_process initial stims trigs times start).
Lemma usual_costs env : usual env -> forall g, env = Some g -> outside g /\ exists k d, costs k d g.
Proof.
  intros [->|(i & a & b & c & d & ->)] g; [discriminate|]. intros [= <-]. split; [apply outside_env|]. destruct (costs_env i a b c d) as (k & H). exists k, 0%nat. exact H.
Qed.
Theorem usual_run_ends O t s env S l u : (1 # 10000 <= qfiring (sp s))%Q -> usual env -> session O t s env S l -> exists r, run O u S r.
Proof. intros Hf He. apply (session_run_ends O t s env (usual_costs env He) Hf). Qed.
Theorem usual_tick_ends O t s env S l : usual env -> session O t s env S l -> heap S <> [] -> exists S', tick O S S'.
Proof. intros He. apply (session_tick_ends O t s env (usual_costs env He)). Qed.
Theorem usual_step_ends O t s env S l : usual env -> session O t s env S l -> exists r, step_ O l S r.
Proof. intros He. apply (session_step_ends O t s env (usual_costs env He)). Qed.
Theorem usual_steps_end O t s env n : usual env -> forall S l, session O t s env S l -> exists es r, steps_ O n l S es r.
Proof.
  intros He. induction n as [|n IH]; intros S l H; [exists [], (S, l, Returns); constructor|].
  destruct (usual_step_ends O t s env S l He H) as ([[S1 l1] c] & Hs).
  assert (D : c = Returns \/ c <> Returns) by (destruct c; auto; right; discriminate). destruct D as [->|D]; [|exists [], (S1, l1, c); eapply steps_fails; eassumption].
  assert (E : exists e, l1 = Some e).
  { clear IH H. remember (S1, l1, Returns) as r eqn:Er. induction Hs; try discriminate; [injection Er as _ <-; eauto|auto]. }
  destruct E as (e & ->). destruct (IH S1 (Some e) (session_step _ _ _ _ _ _ _ _ H Hs)) as (es & r & R). exists (e :: es), r. eapply steps_one; eassumption.
Qed.

(** The rule leaves the goal as it is; it fires for ever. *)
Definition ew_rules : dict rule := [("stay", MkRule [("=g", CChunk (wx_goal "start"))] [("=g", CChunk (wx_goal "start"))] 0 None)].
Notation ew_init := (sim_init 0 (kx_state ew_rules) (Some kx_early)).
Definition ew_run (u : Z) : sim := sim_of (run_exec wx_oracle u 3000 ew_init).
Definition fired (S : sim) : nat := List.length (filter (fun e => match ewhat (snd e) with WFired _ => true | _ => false end) (log S)).
Lemma end_used : (1 # 10000 <= qfiring (sp (kx_state ew_rules)))%Q /\ usual (Some kx_early) /\ usual None /\
  session wx_oracle 0 (kx_state ew_rules) (Some kx_early) (ew_run 20000) None /\ fired (ew_run 20000) = 39%nat /\ List.length (heap (ew_run 20000)) = 2%nat /\
  show_time (ew_run 20000) = 20000%Z /\ sscreen (ss (ew_run 20000)) = MkScr (Some [kx_obj "two"]) ["A"].
Proof.
  split; [vm_compute; discriminate|]. split; [right; repeat eexists|]. split; [left; reflexivity|].
  split; [|repeat split; vm_compute; reflexivity]. apply (session_run wx_oracle 0 (kx_state ew_rules) (Some kx_early) 20000 ew_init None); [apply session_start|].
  apply (run_exec_ok _ _ 3000). assert (E : call_of (run_exec wx_oracle 20000 3000 ew_init) = Returns) by (vm_compute; reflexivity). unfold ew_run.
  destruct (run_exec wx_oracle 20000 3000 ew_init) as [[S1 c]|]; cbn [call_of sim_of] in *; [rewrite E; reflexivity|discriminate].
Qed.

(** The same rule when firing takes no time: the clock stands still. *)
Definition ez_state : st :=
  let s := kx_state ew_rules in
  MkSt (MkPar false 0 0 true (1 # 2) true false true) (sw s) (snames s) (sdm s) (smods s) (sprep s) (sextra s) (svars s)
    (srules s) (sorder s) (sused s) (sprocs s) (snext s) (skeys s) (srule s) (scur s) (slastv s) (slast s) (scomp s) (sscreen s).
Fixpoint e_steps (O : oracle) (k : nat) (l : option event) (S : sim) : list event * (sim * option event * call) :=
  match k with
  | 0%nat => ([], (S, l, Returns))
  | Datatypes.S k' =>
      match step_exec O 1000 1000 l S with
      | Some (S1, Some e, Returns) => let (es, r) := e_steps O k' (Some e) S1 in (e :: es, r)
      | Some (S1, l1, c) => ([], (S1, l1, c))
      | None => ([], (S, l, Raises TRuntime))
      end
  end.
Lemma e_steps_session O t s env k : forall l S, session O t s env S l -> snd (snd (e_steps O k l S)) = Returns -> session O t s env (fst (fst (snd (e_steps O k l S)))) (snd (fst (snd (e_steps O k l S)))).
Proof.
  induction k as [|k IH]; intros l S H; cbn [e_steps]; [intros _; exact H|].
  destruct (step_exec O 1000 1000 l S) as [[[S1 l1] c]|] eqn:E; [|discriminate]. apply step_exec_ok in E.
  destruct l1 as [e|]; destruct c as [|f|]; try discriminate; cbn [fst snd].
  - specialize (IH (Some e) S1 (session_step _ _ _ _ _ _ _ _ H E)). destruct (e_steps O k (Some e) S1) as [es r]. exact IH.
  - intros _. exact (session_step _ _ _ _ _ _ _ _ H E).
Qed.
Definition ez_steps : list event * (sim * option event * call) := e_steps wx_oracle 24 None (sim_init 0 ez_state None).
Lemma step_ends_used : let '(es, (x, l, c)) := ez_steps in
  usual None /\ (qfiring (sp ez_state) == 0)%Q /\ session wx_oracle 0 ez_state None x l /\ heap x <> [] /\ show_time x = 0%Z /\
  List.length es = 24%nat /\ firstn 5 (map ewhat es) = [WConflict; WSelected "stay"; WFired "stay"; WText "MODIFIED"; WConflict].
Proof.
  assert (H : snd (snd ez_steps) = Returns -> session wx_oracle 0 ez_state None (fst (fst (snd ez_steps))) (snd (fst (snd ez_steps)))) by exact (e_steps_session wx_oracle 0 ez_state None 24 None (sim_init 0 ez_state None) (session_start _ _ _ _)).
  assert (R : match snd (snd ez_steps) with Returns => true | _ => false end = true) by (vm_compute; reflexivity).
  assert (C : match ez_steps with (es, (x, _, _)) => (List.length (heap x), show_time x, List.length es, firstn 5 (map ewhat es)) end = (2%nat, 0%Z, 24%nat, [WConflict; WSelected "stay"; WFired "stay"; WText "MODIFIED"; WConflict])) by (vm_compute; reflexivity).
  assert (Q : (qfiring (sp ez_state) == 0)%Q) by reflexivity.
  revert H R C Q. generalize ez_steps, ez_state. intros [es [[x l] c]] s H R C Q. cbn [fst snd] in *. destruct c; try discriminate. injection C as C1 C2 C3 C4.
  split; [left; reflexivity|]. split; [exact Q|]. split; [exact (H eq_refl)|]. split; [intros E; rewrite E in C1; discriminate|]. auto.
Qed.
