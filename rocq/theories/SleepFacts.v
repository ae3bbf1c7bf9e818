(** Nobody oversleeps in sequences of run() and step(). *)
From Coq Require Import Lia Sorted.
From Verif Require Import Base BaseFacts Chunks DecMem Buffers BufferFacts Productions ProdSpec Sim SimSpec SimFacts SerialFacts StoryFacts InterruptFacts Compile CompileSpec CompileFacts Run RunSpec RunFacts KeepSpec KeepFacts KeepRuns ShadowFacts RulesSpec.
Local Open Scope list_scope.

Lemma end_inv O S S' c : at_end O S = (S', c) -> Inv2 S -> Inv2 S'.
Proof. intros E H. destruct (at_end_sum _ _ _ _ E) as (x & ->). apply Inv2_ss. exact H. Qed.
Lemma run_inv O u S S' c : rest S -> run O u S (S', c) -> Inv2 S'.
Proof.
  intros [H Et Hd] R. inversion R as [L E|S1 f L Lp D E|S1 L Lp D E]; subst; [exact H| |].
  - destruct (loop_sum _ _ _ _ Lp H) as (I1 & _); [lia|congruence|]. exact I1.
  - destruct (loop_sum _ _ _ _ Lp H) as (I1 & I2 & _ & I4); [lia|congruence|]. destruct (I4 D) as [T4 Q4]. apply (end_inv _ _ _ _ E). apply Inv2_now; auto; lia.
Qed.
Lemma steps_inv O l S r : step_ O l S r -> rest S -> Inv2 (fst (fst r)).
Proof.
  intros H. induction H as [S Et Hd Ep|S S1 f Hd T D|S S1 e Hd T D N|S S1 S2 f Hd T D N E|S S1 S2 r Hd T D N E H IH]; cbn [fst snd]; intros R; [apply R|apply (tick_sum _ _ _ (re_inv _ R) T)..| |].
  - exact (end_inv _ _ _ _ E (proj1 (tick_sum _ _ _ (re_inv _ R) T))).
  - apply IH. destruct (tick_sum _ _ _ (re_inv _ R) T) as (I1 & _ & I3 & _). destruct (at_end_sum _ _ _ _ E) as (x & ->). constructor; cbn; auto. apply Inv2_ss. exact I1.
Qed.
Lemma left_inv O t s env S : left_by O t s env S -> Inv2 S.
Proof.
  intros [X l H|X l u X' c H R|X l X' l' c H R]; pose proof (session_rest _ _ _ _ _ _ H) as K; [apply K|exact (run_inv _ _ _ _ _ K R)|exact (steps_inv _ _ _ _ R K)].
Qed.
Lemma left_shadow O tie t s env S : compiles_with O tie -> left_by O t s env S -> shadow O t s env S.
Proof.
  intros CO [X l H|X l u X' c H R|X l X' l' c H R]; pose proof (session_rest _ _ _ _ _ _ H) as K; pose proof (session_shadow O tie t s env CO _ _ H) as Sh.
  - exact Sh.
  - exact (shadow_run O tie t s env CO u X X' c K Sh R).
  - exact (shadow_steps O tie t s env CO l X _ R K Sh).
Qed.

Theorem left_never_late O tie t s env S p e : compiles_with O tie -> (forall g, env = Some g -> outside g) -> left_by O t s env S -> waits_for p e S -> (now S <= etime e)%Z.
Proof.
  intros CO He H W. pose proof (proj1 (left_inv _ _ _ _ _ H)) as I. destruct (left_shadow _ _ _ _ _ _ CO H) as [R|u S0 R -> Et Hd|u x S0 R -> Et Hd Eh _].
  - exact (never_late _ _ _ _ _ _ _ He R W).
  - destruct (waits_for_due _ _ _ W) as (r & Hr & D & _). assert (Dn : due (pcode r) <> None) by congruence.
    destruct (waits_runs _ _ _ _ _ He R p r Hr Dn) as [A|[A|(o & A)]]; [|rewrite Et in A; destruct A|rewrite Et in A; destruct A].
    destruct (awaits_time p r _ S0 (sim_ok _ _ _ _ _ R) Hr D A) as (h & Hh & <-). exact (proj1 (i_heap _ I _ Hh)).
  - exfalso. refine (never_left _ _ _ _ _ p e He R _ Hd W). unfold sim_step. rewrite Hd, Et, Eh. reflexivity.
Qed.
Theorem left_nobody O tie t s env S p e : compiles_with O tie -> (forall g, env = Some g -> outside g) -> left_by O t s env S -> peek S = None -> todo S = [] -> dead S = None -> ~ waits_for p e S.
Proof.
  intros CO He H Pk T D. assert (N : forall X, heap X = [] -> todo X = [] -> dead X = None -> sim_step O X = None) by (intros X A B C; unfold sim_step; rewrite A, B, C; reflexivity).
  apply peek_none in Pk. destruct (left_shadow _ _ _ _ _ _ CO H) as [R|u S0 R -> Et Hd|u x S0 R -> Et Hd Eh _]; exact (never_left _ _ _ _ _ p e He R ltac:(apply N; assumption) ltac:(assumption)).
Qed.

(** The trace of a session is one of the simulation. *)
Theorem left_log O tie t s env S : compiles_with O tie -> left_by O t s env S -> exists S0, sim_runs O (sim_init t s env) S0 /\ log S = log S0.
Proof. intros CO H. destruct (left_shadow _ _ _ _ _ _ CO H) as [R|u S0 R -> Et Hd|u x S0 R -> Et Hd Eh _]; eauto. Qed.
Theorem left_sorted O t s env S : left_by O t s env S ->
  StronglySorted Z.le (map fst (log S)) /\ Forall (fun te => fst te = etime (snd te) /\ (fst te <= now S)%Z) (log S).
Proof. intros H. exact (i_log S (proj1 (left_inv _ _ _ _ _ H))). Qed.
Theorem left_cycles O tie t s env S : compiles_with O tie -> (forall g, env = Some g -> outside g) -> left_by O t s env S ->
  exists cycles tail rest t1, rule_events S = (List.concat cycles ++ tail)%list /\
    Forall (fun c => exists t, rule_cycle (qfiring (sp s)) t c) cycles /\ rule_cycle (qfiring (sp s)) t1 (tail ++ rest).
Proof.
  intros CO He H. destruct (left_log _ _ _ _ _ _ CO H) as (S0 & R & E). unfold rule_events. rewrite E. exact (sim_cycles _ _ _ _ _ He R).
Qed.
