(** How a simulation is driven makes no difference to what happens in it. *)
From Coq Require Import Lia.
From Verif Require Import Base BaseFacts Chunks DecMem Buffers BufferFacts Productions ProdSpec Sim SimSpec SimFacts SerialFacts StoryFacts InterruptFacts Compile CompileSpec CompileFacts Run RunSpec RunFacts KeepSpec KeepFacts KeepRuns ShadowFacts RulesSpec RulesFacts SleepFacts.
Local Open Scope list_scope.

Lemma runs_linear O S A B : sim_runs O S A -> sim_runs O S B -> sim_runs O A B \/ sim_runs O B A.
Proof.
  intros RA RB. induction RB as [S|S X Y RB IH Hs]; [auto|]. destruct (IH RA) as [R|R].
  - left. exact (sim_runs_step O A X Y R Hs).
  - assert (L : forall U V, sim_runs O U V -> V = U \/ exists W, sim_step O U = Some W /\ sim_runs O W V).
    { intros U V Q. induction Q as [U|U V W Q IHQ Hw]; [auto|]. destruct IHQ as [->|(Z & Hz & Q')]; right; [exists W; split; [exact Hw|constructor]|exists Z; split; [exact Hz|exact (sim_runs_step O _ _ _ Q' Hw)]]. }
    destruct (L _ _ R) as [->|(W & Hw & Q)]; [left; exact (sim_runs_step O X X Y (sim_runs_refl O X) Hs)|]. right. replace Y with W by congruence. exact Q.
Qed.
Theorem one_story O tie t s env S1 S2 : compiles_with O tie -> left_by O t s env S1 -> left_by O t s env S2 ->
  exists new, log S2 = log S1 ++ new \/ log S1 = log S2 ++ new.
Proof.
  intros CO H1 H2. destruct (left_log _ _ _ _ _ _ CO H1) as (A & RA & ->). destruct (left_log _ _ _ _ _ _ CO H2) as (B & RB & ->).
  destruct (runs_linear _ _ _ _ RA RB) as [R|R].
  - destruct (log_runs _ _ _ _ _ _ RA R) as (new & E). eauto.
  - destruct (log_runs _ _ _ _ _ _ RB R) as (new & E). eauto.
Qed.
(** The state that is left is one of the simulation, but for the clock and rules that are compiled at the end. *)
Theorem left_real O tie t s env S : compiles_with O tie -> left_by O t s env S ->
  exists S0, sim_runs O (sim_init t s env) S0 /\ log S = log S0 /\ sw (ss S) = sw (ss S0) /\ smods (ss S) = smods (ss S0) /\ rules_kept (srules (ss S0)) (srules (ss S)) /\
    (qcompile (sp (ss S0)) = false -> srules (ss S) = srules (ss S0)).
Proof.
  intros CO H. destruct (left_shadow _ _ _ _ _ _ CO H) as [R|u S0 R -> Et Hd|u x S0 R -> Et Hd Eh (A & B & C & D & E & F)].
  - exists S. repeat split; auto. apply rules_kept_refl.
  - exists S0. repeat split; auto. apply rules_kept_refl.
  - exists S0. repeat split; auto.
Qed.

(** ** Up to the same time *)

Section Clock.
Variables (O : oracle) (tie : string -> string -> bool) (t : Z) (s : st) (env : option gen).
Hypothesis CO : compiles_with O tie.
Notation real := (sim_runs O (sim_init t s env)).

(** [S] is [S0] with a later clock, and with further rules if nothing is left in the queue. *)
Definition twin (S0 S : sim) : Prop := exists u x, S = set_now u (set_ss x S0) /\ todo S0 = [] /\ dead S0 = None /\ (now S0 <= u)%Z /\ (heap S0 = [] \/ x = ss S0) /\ more_rules (ss S0) x.
Definition aged (S : sim) : Prop := real S \/ exists S0, real S0 /\ twin S0 S.

Lemma same_ss S : set_now (now S) (set_ss (ss S) S) = S.
Proof. destruct S; reflexivity. Qed.
Lemma twin_self S : todo S = [] -> dead S = None -> twin S S.
Proof. intros A B. exists (now S), (ss S). rewrite same_ss. repeat split; auto; [lia|apply rules_kept_refl]. Qed.
Lemma twin_later u S0 S : twin S0 S -> (now S <= u)%Z -> twin S0 (set_now u S).
Proof. intros (v & x & -> & A & B & C & D & E) H. cbn in H. exists u, x. repeat split; auto; try apply E. lia. Qed.
Lemma twin_end S0 S S' c : twin S0 S -> at_end O S = (S', c) -> twin S0 S'.
Proof.
  intros T. unfold at_end. destruct (peek S) eqn:Ep; [intros [= <- _]; exact T|]. apply peek_none in Ep. unfold compile_end. destruct (compile_now O (ss S)) as [[[[n again] rs]|]|e] eqn:Ec; intros [= <- _]; try exact T.
  destruct T as (v & x & -> & A & B & C & D & E). cbn in Ep. exists v, (set_order (sorder x ++ [n]) (set_rules rs x)). split; [reflexivity|]. split; [exact A|]. split; [exact B|]. split; [exact C|]. split; [left; exact Ep|].
  exact (more_compile O tie CO _ _ _ _ _ E Ec).
Qed.
Lemma aged_step S S' : aged S -> sim_step O S = Some S' -> real S'.
Proof.
  intros [R|(S0 & R & v & x & -> & A & B & C & D & E)] Hs; [exact (sim_runs_step O _ _ _ R Hs)|].
  destruct D as [D| ->]; [unfold sim_step in Hs; cbn [dead todo set_now set_ss heap] in Hs; rewrite A, B, D in Hs; discriminate|].
  apply (sim_runs_step O _ S0 _ R). rewrite <- Hs. replace (set_ss (ss S0) S0) with S0 by (destruct S0; reflexivity). symmetry. apply step_now; [exact A|]. intros Ep. apply peek_none in Ep.
  unfold sim_step in Hs. cbn [dead todo set_now set_ss heap] in Hs. rewrite A, B, Ep in Hs. discriminate.
Qed.
Lemma real_loop u S S' : loop O u S S' -> real S -> real S'.
Proof. intros L. induction L as [| |S S1 S2 Hd Hr Hs L IH]; auto. intros H. apply IH. exact (sim_runs_step O _ _ _ H Hs). Qed.
Lemma real_drain S S' : drain O S S' -> real S -> real S'.
Proof. intros L. induction L as [| |S S1 S2 Hd Ht Hs L IH]; auto. intros H. apply IH. exact (sim_runs_step O _ _ _ H Hs). Qed.
Lemma aged_tick S S' : tick O S S' -> aged S -> real S'.
Proof. intros (S1 & _ & Hs & D) H. exact (real_drain S1 S' D (aged_step S S1 H Hs)). Qed.
Lemma pop_clock S S' : todo S = [] -> sim_step O S = Some S' -> exists q, In q (heap S) /\ now S' = qtime q /\ peek S = Some (qtime q).
Proof.
  intros Et Hs. unfold sim_step in Hs. destruct (dead S); [discriminate|]. rewrite Et in Hs. unfold peek. destruct (pop_min (heap S)) as [[q h]|] eqn:Ep; [|discriminate]. cbv zeta in Hs.
  destruct (pop_min_ok _ _ _ Ep) as [Hq _]. exists q. split; [apply Hq; left; reflexivity|]. split; [|reflexivity]. destruct (event_at (qev q) _); injection Hs as <-; [|reflexivity].
  unfold exec_, set_event, upd_. cbn [fst]. cbn [evs set_now set_queue]. destruct (nth_error (evs S) (qev q)); reflexivity.
Qed.
Lemma loop_before u S S' : loop O u S S' -> Inv2 S -> (now S < u)%Z -> (now S' < u)%Z.
Proof.
  intros L. induction L as [| |S S1 S2 Hd Hr Hs L IH]; auto. intros I N. apply IH; [exact (step_ok2 _ _ _ I Hs)|]. destruct (todo S) as [|w l] eqn:Et.
  - destruct (pop_clock _ _ Et Hs) as (q & _ & -> & Pk). unfold reached, between in Hr. rewrite Et, Pk in Hr. cbn in Hr. apply Z.leb_gt in Hr. exact Hr.
  - unfold sim_step in Hs. rewrite Hd, Et in Hs. injection Hs as <-. rewrite (work_clock O w l S (proj1 I) Et). exact N.
Qed.
Lemma aged_run u S S' : rest S -> aged S -> run O u S (S', Returns) -> exists S0, real S0 /\ twin S0 S' /\ (now S0 < u)%Z.
Proof.
  intros [I Et Hd] H R. inversion R as [L E|S1 f L Lp D E|S1 L Lp D E]; subst.
  destruct (loop_sum _ _ _ _ Lp I) as (I1 & I2 & _ & I4); [lia|congruence|]. destruct (I4 D) as [T4 _]. pose proof (loop_before _ _ _ Lp I L) as Lb.
  assert (B : S1 = S \/ real S1) by (inversion Lp as [? ? Q|? Q1 Q2|? S2 ? Q1 Q2 Q3 Q4]; subst; auto; right; exact (real_loop _ _ _ Q4 (aged_step _ _ H Q3))).
  assert (C : real S1 \/ exists S0, real S0 /\ twin S0 S1) by (destruct B as [->|B]; [exact H|auto]).
  assert (G : exists S0, real S0 /\ twin S0 S1 /\ (now S0 < u)%Z).
  { destruct C as [C|(S0 & R0 & T)]; [exists S1; split; [exact C|]; split; [apply twin_self; assumption|exact Lb]|]. exists S0. split; [exact R0|]. split; [exact T|]. destruct T as (v & x & -> & _ & _ & Le & _). cbn in Lb. lia. }
  destruct G as (S0 & R0 & T & Lt). exists S0. split; [exact R0|]. split; [|exact Lt]. refine (twin_end _ _ _ _ (twin_later u _ _ T _) E). lia.
Qed.
Lemma aged_steps l S r : step_ O l S r -> rest S -> aged S -> aged (fst (fst r)).
Proof.
  intros H. induction H as [S Et Hd Ep|S S1 f Hd T D|S S1 e Hd T D N|S S1 S2 f Hd T D N E|S S1 S2 r Hd T D N E H IH]; cbn [fst snd]; intros R K.
  - exact K.
  - left. exact (aged_tick S S1 T K).
  - left. exact (aged_tick S S1 T K).
  - destruct (tick_sum _ _ _ (re_inv _ R) T) as (_ & _ & I3 & _). right. exists S1. split; [exact (aged_tick S S1 T K)|]. exact (twin_end _ _ _ _ (twin_self S1 (I3 D) D) E).
  - destruct (tick_sum _ _ _ (re_inv _ R) T) as (I1 & _ & I3 & _). apply IH.
    + destruct (at_end_sum _ _ _ _ E) as (x & ->). constructor; cbn; auto. apply Inv2_ss. exact I1.
    + right. exists S1. split; [exact (aged_tick S S1 T K)|]. exact (twin_end _ _ _ _ (twin_self S1 (I3 D) D) E).
Qed.
Lemma session_aged S l : session O t s env S l -> aged S.
Proof.
  intros H. induction H as [|u S l S' H IH R|S l S' l' H IH R].
  - left. constructor.
  - destruct (aged_run u S S' (session_rest _ _ _ _ _ _ H) IH R) as (S0 & R0 & T & _). right. eauto.
  - exact (aged_steps l S _ R (session_rest _ _ _ _ _ _ H) IH).
Qed.
Lemma clock_runs A B : real A -> sim_runs O A B -> (now A <= now B)%Z.
Proof.
  intros RA R. induction R as [A|A X Y R IH Hs]; [lia|]. pose proof (step_clock O X Y (sim_ok O t s env X (runs_app _ _ _ _ RA R)) Hs). specialize (IH RA). lia.
Qed.
Lemma runs_first U V : sim_runs O U V -> V = U \/ exists W, sim_step O U = Some W /\ sim_runs O W V.
Proof.
  intros Q. induction Q as [U|U V W Q IHQ Hw]; [auto|]. destruct IHQ as [->|(Z & Hz & Q')]; right; [exists W; split; [exact Hw|constructor]|exists Z; split; [exact Hz|exact (sim_runs_step O _ _ _ Q' Hw)]].
Qed.
Lemma no_further u A B : real A -> todo A = [] -> (forall q, In q (heap A) -> (u <= qtime q)%Z) -> (now B < u)%Z -> sim_runs O A B -> B = A.
Proof.
  intros RA Et Hq N R. destruct (runs_first _ _ R) as [E|(W & Hs & Q)]; [exact E|]. exfalso. destruct (pop_clock _ _ Et Hs) as (q & Hi & E & _). specialize (Hq q Hi).
  pose proof (clock_runs W B (sim_runs_step O _ _ _ RA Hs) Q). lia.
Qed.
Theorem same_clock S1 l1 S2 l2 u X1 X2 : (forall g, env = Some g -> outside g) -> session O t s env S1 l1 -> session O t s env S2 l2 -> run O u S1 (X1, Returns) -> run O u S2 (X2, Returns) ->
  log X1 = log X2 /\ sw (ss X1) = sw (ss X2) /\ smods (ss X1) = smods (ss X2) /\ (qcompile (sp s) = false -> srules (ss X1) = srules (ss X2)).
Proof.
  intros He H1 H2 R1 R2. destruct (aged_run _ _ _ (session_rest _ _ _ _ _ _ H1) (session_aged _ _ H1) R1) as (A & RA & TA & NA).
  destruct (aged_run _ _ _ (session_rest _ _ _ _ _ _ H2) (session_aged _ _ H2) R2) as (B & RB & TB & NB).
  assert (Q : forall S l X, session O t s env S l -> run O u S (X, Returns) -> forall q, In q (heap X) -> (u <= qtime q)%Z).
  { intros S l X H R. destruct (run_sum_ _ _ _ _ _ (session_rest _ _ _ _ _ _ H) R) as [(_ & _ & [=])|(_ & _ & _ & K)]. apply K. reflexivity. }
  pose proof (Q _ _ _ H1 R1) as QA. pose proof (Q _ _ _ H2 R2) as QB. destruct TA as (u1 & x1 & -> & EA & _ & _ & _ & MA). destruct TB as (u2 & x2 & -> & EB & _ & _ & _ & MB).
  assert (E : A = B).
  { destruct (runs_linear _ _ _ _ RA RB) as [R|R]; [symmetry; exact (no_further u A B RA EA QA NB R)|exact (no_further u B A RB EB QB NA R)]. }
  subst B. destruct MA as (_ & _ & W1 & M1 & P1 & F1). destruct MB as (_ & _ & W2 & M2 & P2 & F2). cbn [log ss set_now set_ss].
  split; [reflexivity|]. split; [congruence|]. split; [congruence|]. intros C.
  assert (C' : qcompile (sp (ss A)) = false).
  { pose proof (keep_left learning O (about_learning O) s t env _ He (left_run O t s env _ _ _ _ _ H1 R1) C) as (Y & _). cbn [ss set_now set_ss] in Y. congruence. }
  rewrite (F1 C'), (F2 C'). reflexivity.
Qed.
End Clock.

(** ** Exceptions *)

Lemma left_dead O tie t s env S f : compiles_with O tie -> left_by O t s env S -> dead S = Some f -> sim_runs O (sim_init t s env) S.
Proof.
  intros CO H D. destruct (left_shadow _ _ _ _ _ _ CO H) as [R|u S0 R -> Et Hd|u x S0 R -> Et Hd Eh _]; [exact R|cbn in D; congruence|cbn in D; congruence].
Qed.
Lemma dead_stays O A B f : dead A = Some f -> sim_runs O A B -> B = A.
Proof. intros D R. destruct (runs_first O A B R) as [E|(W & Hs & _)]; [exact E|]. unfold sim_step in Hs. rewrite D in Hs. discriminate. Qed.
Theorem same_end O tie t s env S1 S2 f : compiles_with O tie -> left_by O t s env S1 -> left_by O t s env S2 -> dead S1 = Some f ->
  (exists new, log S1 = log S2 ++ new) /\ forall f', dead S2 = Some f' -> S2 = S1.
Proof.
  intros CO H1 H2 D. pose proof (left_dead _ _ _ _ _ _ _ CO H1 D) as R1. split.
  - destruct (left_log _ _ _ _ _ _ CO H2) as (B & RB & ->). destruct (runs_linear _ _ _ _ R1 RB) as [R|R].
    + rewrite (dead_stays _ _ _ _ D R). exists []. rewrite app_nil_r. reflexivity.
    + exact (log_runs _ _ _ _ _ _ RB R).
  - intros f' D'. pose proof (left_dead _ _ _ _ _ _ _ CO H2 D') as R2. destruct (runs_linear _ _ _ _ R1 R2) as [R|R]; [exact (dead_stays _ _ _ _ D R)|symmetry; exact (dead_stays _ _ _ _ D' R)].
Qed.
