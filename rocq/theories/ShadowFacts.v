(** What a session of run() and step() shows of a simulation: states that the simulation itself reaches, up to the clock
    and up to the rules that are compiled once nothing is left in the queue. *)
From Coq Require Import Lia.
From Verif Require Import Base BaseFacts Chunks DecMem Buffers Productions ProdSpec Sim SimSpec SimFacts Compile CompileSpec CompileFacts Run RunSpec RunFacts.
Local Open Scope list_scope.

Section Shadow.
Variables (O : oracle) (tie : string -> string -> bool) (t : Z) (s : st) (env : option gen).
Hypothesis CO : compiles_with O tie.

(** The rules have grown, everything else is the same. *)
Definition more_rules (x x' : st) : Prop :=
  rules_kept (srules x) (srules x') /\ snames x' = snames x /\ sw x' = sw x /\ smods x' = smods x /\ sp x' = sp x /\ (qcompile (sp x) = false -> srules x' = srules x).
Lemma more_refl x : more_rules x x.
Proof. repeat split; auto. apply rules_kept_refl. Qed.
Lemma more_compile x x' n again rs : more_rules x x' -> compile_now O x' = Ok (Some (n, again, rs)) -> more_rules x (set_order (sorder x' ++ [n]) (set_rules rs x')).
Proof.
  intros (A & B & C & D & E & F) H. destruct (compile_now_inv _ _ _ _ CO H) as (r1 & r2 & vals & _ & Ex). pose proof (compile_keeps _ _ _ _ _ _ _ _ Ex) as K.
  repeat split; auto; [exact (rules_kept_trans _ _ _ A K)|]. intros Q. unfold compile_now in H. rewrite E, Q in H. discriminate.
Qed.
Inductive shadow (S : sim) : Prop :=
| shadow_self : sim_runs O (sim_init t s env) S -> shadow S
| shadow_now u S0 : sim_runs O (sim_init t s env) S0 -> S = set_now u S0 -> todo S0 = [] -> dead S0 = None -> shadow S
| shadow_end u x S0 : sim_runs O (sim_init t s env) S0 -> S = set_now u (set_ss x S0) -> todo S0 = [] -> dead S0 = None -> heap S0 = [] -> more_rules (ss S0) x -> shadow S.

Lemma shadow_step S S' : shadow S -> sim_step O S = Some S' -> shadow S'.
Proof.
  intros [R|u S0 R -> Et Hd|u x S0 R -> Et Hd Eh _] Hs.
  - apply shadow_self. exact (sim_runs_step O _ _ _ R Hs).
  - apply shadow_self. apply (sim_runs_step O _ S0 _ R). rewrite <- Hs. symmetry. apply step_now; [exact Et|]. intros Ep. apply peek_none in Ep.
    unfold sim_step in Hs. cbn [dead todo set_now heap] in Hs. rewrite Hd, Et, Ep in Hs. discriminate.
  - unfold sim_step in Hs. cbn [dead todo set_now set_ss heap] in Hs. rewrite Hd, Et, Eh in Hs. discriminate.
Qed.
Lemma shadow_clock u S : shadow S -> todo S = [] -> dead S = None -> shadow (set_now u S).
Proof.
  intros [R|v S0 R -> Et Hd|v x S0 R -> Et Hd Eh G] Et' Hd'.
  - exact (shadow_now _ u S R eq_refl Et' Hd').
  - exact (shadow_now _ u S0 R eq_refl Et Hd).
  - exact (shadow_end _ u x S0 R eq_refl Et Hd Eh G).
Qed.
Lemma shadow_at_end S S' c : shadow S -> todo S = [] -> dead S = None -> at_end O S = (S', c) -> shadow S'.
Proof.
  intros Sh Et Hd. unfold at_end. destruct (peek S) eqn:Ep; [intros [= <- _]; exact Sh|]. apply peek_none in Ep. unfold compile_end. destruct (compile_now O (ss S)) as [[[[n again] rs]|]|e] eqn:Ec; intros [= <- _]; try exact Sh.
  destruct Sh as [R|v S0 R -> Et0 Hd0|v x S0 R -> Et0 Hd0 Eh G].
  - apply (shadow_end _ (now S) (set_order (sorder (ss S) ++ [n]) (set_rules rs (ss S))) S R); auto; try (destruct S; reflexivity). exact (more_compile _ _ _ _ _ (more_refl _) Ec).
  - apply (shadow_end _ v (set_order (sorder (ss S0) ++ [n]) (set_rules rs (ss S0))) S0 R); auto. exact (more_compile _ _ _ _ _ (more_refl _) Ec).
  - apply (shadow_end _ v (set_order (sorder x ++ [n]) (set_rules rs x)) S0 R); auto. exact (more_compile _ _ _ _ _ G Ec).
Qed.
Lemma shadow_loop u S S' : loop O u S S' -> shadow S -> shadow S'.
Proof. intros L. induction L as [| |S S1 S2 Hd Hr Hs L IH]; auto. intros H. apply IH. exact (shadow_step S S1 H Hs). Qed.
Lemma shadow_drain S S' : drain O S S' -> shadow S -> shadow S'.
Proof. intros L. induction L as [| |S S1 S2 Hd Ht Hs L IH]; auto. intros H. apply IH. exact (shadow_step S S1 H Hs). Qed.
Lemma shadow_tick S S' : tick O S S' -> shadow S -> shadow S'.
Proof. intros (S1 & _ & Hs & D) H. exact (shadow_drain S1 S' D (shadow_step S S1 H Hs)). Qed.
Lemma shadow_run u S S' c : rest S -> shadow S -> run O u S (S', c) -> shadow S'.
Proof.
  intros [A B C] H R. inversion R as [L E|S1 f L Lp D E|S1 L Lp D E]; subst.
  - exact H.
  - exact (shadow_loop u S _ Lp H).
  - pose proof (shadow_loop u S _ Lp H) as X. destruct (loop_sum _ _ _ _ Lp A) as (I1 & I2 & _ & I4); [lia|congruence|]. destruct (I4 D) as [T4 _].
    apply (shadow_at_end _ _ _ (shadow_clock u S1 X T4 D) T4 D E).
Qed.
Lemma shadow_steps l S r : step_ O l S r -> rest S -> shadow S -> shadow (fst (fst r)).
Proof.
  intros H. induction H as [S Et Hd Ep|S S1 f Hd T D|S S1 e Hd T D N|S S1 S2 f Hd T D N E|S S1 S2 r Hd T D N E H IH]; cbn [fst snd]; intros R K.
  - exact K.
  - exact (shadow_tick S S1 T K).
  - exact (shadow_tick S S1 T K).
  - destruct (tick_sum _ _ _ (re_inv _ R) T) as (_ & _ & I3 & _). exact (shadow_at_end S1 S2 _ (shadow_tick S S1 T K) (I3 D) D E).
  - destruct (tick_sum _ _ _ (re_inv _ R) T) as (I1 & _ & I3 & _). pose proof (shadow_at_end S1 S2 _ (shadow_tick S S1 T K) (I3 D) D E) as X.
    destruct (at_end_sum _ _ _ _ E) as (x & ->). apply IH; [|exact X]. constructor; cbn; auto. apply Inv2_ss. exact I1.
Qed.
Lemma session_shadow S l : session O t s env S l -> shadow S.
Proof.
  intros H. induction H as [|u S l S' H IH R|S l S' l' H IH R].
  - apply shadow_self. constructor.
  - exact (shadow_run u S S' _ (session_rest _ _ _ _ _ _ H) IH R).
  - exact (shadow_steps l S _ R (session_rest _ _ _ _ _ _ H) IH).
Qed.
End Shadow.
