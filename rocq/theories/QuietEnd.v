(** Simulations without environment: when they stop by themselves, no rule matches. *)
From Coq Require Import Lia Sorted.
From Verif Require Import Base BaseFacts Chunks DecMem Buffers BufferFacts Productions ProdSpec LearnFacts Sim SimSpec SimFacts Compile CompileFacts Run RunSpec RunFacts LiftFacts SafeSpec RequestFacts RoundFacts QuietGens QueueFacts SafeFacts SafeSteps SafeMain FailFacts SafeRuns BrokenFacts QuietFacts QuietSteps QuietRuns QuietLead QuietMain QuietPop ShadowFacts CompileSpec.
Local Open Scope string_scope.
Local Open Scope list_scope.
Local Open Scope nat_scope.

(** ** The beginning *)

Record Start (S : sim) : Prop := MkStart {
  z_proc : dget (extras S) PROCEDURAL = None;
  z_ext : forall n ev, dget (acts S) n = Some ev -> dget (extras S) n <> None;
  z_inter : inter S = [];
  z_uniq : Uniq S }.
Lemma Start_extra n S : n <> PROCEDURAL -> Start S -> Start (extra_made n S).
Proof.
  intros N [A B C D]. unfold extra_made. set (S0 := set_extras (dset (extras S) n (List.length (prs S))) S). constructor.
  - change (dget (dset (extras S) n (List.length (prs S))) PROCEDURAL = None). rewrite dget_dset_neq; [exact A|congruence].
  - intros m ev Hm. change (dget (dset (acts S) n (List.length (evs (spawned (KExtra0 n) S0)))) m = Some ev) in Hm. change (dget (dset (extras S) n (List.length (prs S))) m <> None).
    rewrite dget_dset in *. destruct (String.eqb n m); [discriminate|]. exact (B m ev Hm).
  - exact C.
  - assert (U0 : Uniq S0) by exact D. pose proof (v_uniq 0 _ _ (Mv_spawned 0 (KExtra0 n) S0) U0) as U1. exact (v_uniq 0 _ _ (Mv_added 0 act0 (spawned (KExtra0 n) S0) eq_refl ltac:(discriminate)) U1).
Qed.
Lemma make_extras_Start names : forall S, Start S -> Start (fst (make_extras names S)).
Proof.
  induction names as [|n names IH]; intros S H; [exact H|]. rewrite make_extras_eq. destruct (String.eqb_spec n PROCEDURAL) as [E|N]; [apply IH; exact H|]. apply IH. apply Start_extra; assumption.
Qed.
Lemma init_Start t s : Start (sim_init t s None).
Proof.
  set (S1 := spawned KProc0 (sim_start t s)).
  assert (M1 : Start S1).
  { constructor; try reflexivity; try discriminate. apply (v_uniq 0 _ _ (Mv_spawned 0 KProc0 (sim_start t s))). split; [constructor|intros q []]. }
  pose proof (make_extras_Start (dkeys (snames s)) S1 M1) as M2. assert (E2 : snd (make_extras (dkeys (snames s)) S1) = inl tt).
  { clear. generalize S1. induction (dkeys (snames s)) as [|n l IH]; intros S; [reflexivity|]. rewrite make_extras_eq. apply IH. }
  destruct (make_extras (dkeys (snames s)) S1) as [S2 x] eqn:Em. cbn [fst snd] in *. subst x. rewrite (init_eq _ _ _ Em). destruct M2 as [A B C D]. constructor; try assumption.
  exact (v_uniq 0 _ _ (Mv_added 0 act0 S2 eq_refl ltac:(discriminate)) D).
Qed.
Lemma init_Quiet O t s : NoDup (dkeys (snames s)) -> sprocs s = [] -> Quiet O (sim_init t s None).
Proof.
  intros Nd Es. destruct (init_Que t s Nd) as [Q Hd]. destruct (init_Morning t s Nd) as [[A B C] (R1 & R2 & R3 & R4 & R5)]. destruct (init_Start t s) as [Z1 Z2 Z3 Z4]. set (S := sim_init t s None) in *.
  assert (Ep : sprocs (ss S) = []) by (rewrite R2; exact Es).
  assert (Ni : NoHits S). { intros q p _ (e & He & Ro). destruct (C _ e He) as [_ X]. rewrite Ro in X. exact X. }
  assert (Hh : forall q e, In q (heap S) -> event_at (qev q) S = Some e -> exists p, erole e = RInit p).
  { intros q e Hq He. destruct (q_heap _ _ Q q Hq) as (_ & _ & x & Hx & Vx & _). assert (x = e) by congruence. subst x. destruct (C _ e He) as [_ X]. destruct (erole e); try contradiction; try congruence. eauto. }
  assert (Nb : NoBaby S) by (intros p r n g Hr Hc; specialize (Hd p r Hr); rewrite Hc in Hd; exact Hd).
  exists SStart. split; [|split].
  - constructor; auto.
    + intros p r Hr _. specialize (Hd p r Hr). unfold Load. destruct (pcode r); try contradiction; exact I.
    + intros n ev q Hn Hq Eq. destruct (q_acts _ _ Q n ev Hn) as (e & He & Ro). rewrite <- Eq in He. destruct (Hh q e Hq He) as (p & D). congruence.
    + intros ev e He Ve Ce. destruct (C ev e He) as [_ X]. destruct (erole e) as [|?|p|?| |]; try contradiction. destruct X as (_ & r & Hr & Ev). specialize (Hd p r Hr).
      destruct (q_wait _ _ Q p r Hr) as (y & Hy & _ & Ai); [discriminate|destruct (pcode r); contradiction || discriminate|]. assert (Ry : erole y = RInit p /\ exists q, In q (heap S) /\ qev q = ptarget r) by (destruct (pcode r); try contradiction; exact Ai).
      destruct Ry as (Ry & q & Hq & Eq). destruct (C _ y Hy) as [_ Y]. rewrite Ry in Y. destruct Y as (_ & r' & Hr' & Ev'). assert (r' = r) by congruence. subst r'. exists q. split; [exact Hq|congruence].
    + intros ev e t0 He Ro. destruct (C ev e He) as [_ X]. rewrite Ro in X. contradiction.
    + intros q e Hq He _. destruct (Hh q e Hq He) as (p & Ro). apply (urgent_entry None S q e Q Hq He). rewrite Ro. reflexivity.
    + intros pr Hpr. rewrite Ep in Hpr. destruct Hpr.
    + intros n id Hn. rewrite Z3 in Hn. discriminate.
  - destruct A as (r0 & P0 & C0). exists r0. split; [exact P0|]. split; [exact C0|]. split; [exact Nb|].
    destruct (q_wait _ _ Q 0 r0 P0) as (y & Hy & _ & Ai); [discriminate|congruence|]. rewrite C0 in Ai. destruct Ai as (Ry & q & Hq & Eq). exists q. split; [exact Hq|]. split; [exact Eq|].
    apply (urgent_entry None S q y Q Hq); [congruence|]. rewrite Ry. reflexivity.
  - split; assumption.
Qed.

(** ** The end *)

Section Model.
Variables (O : oracle) (tie : string -> string -> bool) (t : Z) (s : st).
Hypothesis CO : compiles_with O tie.
Hypothesis H1 : one_request s.
Hypothesis H2 : plain_names s.
Hypothesis V : svars s = nobind.
Hypothesis Es : sprocs s = [].
Hypothesis Nd : NoDup (dkeys (snames s)).
Hypothesis SE : slow_eyes O.
Local Notation Fin := (Fin O).
Local Notation Quiet := (Quiet O).
Local Notation Reach := (Reach O t s).

Lemma fin_step S S' : Reach S -> Fin S -> sim_step O S = Some S' -> Fin S'.
Proof.
  intros R F Hs. destruct F as [S Qu Et|S B|S S1 Nt Hs1 F].
  - exact (quiet_step O tie t s CO H1 H2 V Es Nd SE S S' R Et Qu Hs).
  - apply fin_broken. exact (broken_step O S S' (reach_inv O t s S R) (reach_mannered O tie t s CO H1 H2 V S R) B Hs).
  - assert (S1 = S') by congruence. subst S1. exact F.
Qed.
Lemma fin_all S : Reach S -> Fin S.
Proof.
  intros R. unfold QuietRuns.Reach in R. remember (sim_init t s None) as S0 eqn:E0. induction R as [S0|S0 S1 S2 R IH Hs].
  - subst S0. apply fin_here; [apply init_Quiet; assumption|]. apply (init_Morning t s Nd).
  - apply (fin_step S1); [subst S0; exact R|exact (IH E0)|exact Hs].
Qed.
Lemma quiet_end S : Reach S -> Quiet S -> dead S = None -> todo S = [] -> heap S = [] -> NoMatch (ss S).
Proof.
  intros R (d & G & P & Kd) Hd Et Eh. destruct (reach_safe O tie t s CO H1 H2 V Es Nd S R) as [[K N]|B]; [|elim (broken_end S B Hd Et Eh)]. pose proof (reach_inv O t s S R) as HI.
  destruct (o_all _ K) as (a & Q & Se & _ & Td). unfold Todo in Td. rewrite Et in Td. subst a.
  assert (Ne : forall x y, at_hand x S y -> False) by (intros x y (X & _); rewrite Eh in X; exact X).
  assert (Nv : forall i x e, proc_at i S = Some x -> pcode x <> KEnd -> event_at (ptarget x) S = Some e -> evalue e <> None -> False).
  { intros i x e Hx Lx He Ve. destruct (q_wait _ _ Q i x Hx) as (y & Hy & Cy & _); [discriminate|exact Lx|]. assert (y = e) by congruence. subst y.
    destruct (g_full _ _ _ G _ _ He Ve) as (q & Hq & _); [congruence|]. rewrite Eh in Hq. exact Hq. }
  assert (Nt : forall i x b n e g, proc_at i S = Some x -> pcode x = KLocal b n e g -> False).
  { intros i x b n e g Hx Hc. destruct (q_wait _ _ Q i x Hx) as (y & Hy & Cy & Ai); [discriminate|congruence|]. rewrite Hc in Ai. destruct Ai as (t0 & Ro).
    apply (Nv i x y Hx); [congruence|exact Hy|exact (g_time _ _ _ G _ _ _ Hy Ro)]. }
  assert (Id : Idle S -> NoMatch (ss S)). { intros ([X|(p & r & n & e & g & A & B)] & _); [exact X|elim (Nt p r false n e g A B)]. }
  destruct P as (r0 & P0 & X). destruct d as [| |k qm| |qm| | | |].
  - destruct X as (_ & _ & z & X). elim (Ne _ _ X).
  - destruct X as [X1 X2]. apply Id, X2. destruct (trig S (pact S)) eqn:Tg; [exfalso|reflexivity]. destruct (q_wait _ _ Q 0 r0 P0) as (y & Hy & _ & Ai); [discriminate|congruence|]. rewrite X1 in Ai. cbn [aims] in Ai.
    apply (Nv 0 r0 y P0); [congruence|exact Hy|]. unfold trig in Tg. rewrite <- Ai, Hy in Tg. unfold triggered in Tg. destruct (evalue y); [discriminate|discriminate].
  - destruct X as (_ & _ & X). elim (Ne _ _ X).
  - destruct X as (f & p & r & _ & _ & _ & _ & _ & z & X). elim (Ne _ _ X).
  - destruct X as (f & p & r & _ & _ & _ & _ & X & _). elim (Ne _ _ X).
  - destruct X as (f & p & r & _ & _ & _ & _ & _ & z & X). elim (Ne _ _ X).
  - destruct X as (f & p & r & _ & A & _ & n & e & g & B & _). elim (Nt p r true n e g A B).
  - destruct X as (f & p & r & _ & _ & _ & _ & _ & z & X). elim (Ne _ _ X).
  - destruct X as (f & p & r & X1 & X2 & X3 & X4). exfalso. destruct (i_own _ HI p r X2) as (y & Hy & _ & Vy). rewrite X3 in Hy. apply (Nv 0 r0 y P0); [congruence|exact Hy|]. intros D. apply Vy in D. contradiction.
Qed.
Lemma sim_NoMatch S : Reach S -> dead S = None -> todo S = [] -> heap S = [] -> NoMatch (ss S).
Proof.
  intros R Hd Et Eh. destruct (fin_all S R) as [S Qu _|S B|S S1 Nt _ _].
  - exact (quiet_end S R Qu Hd Et Eh).
  - elim (broken_end S B Hd Et Eh).
  - contradiction.
Qed.

(** ** Names of rules *)

Hypothesis Rk : all_ranked s.
Hypothesis Nn : dget (srules s) "" = None.
Lemma sim_named S : Reach S -> dget (srules (ss S)) "" = None.
Proof.
  intros R. apply dget_None. refine (sim_invariant (fun s => ~ In "" (dkeys (srules s))) O SimSpec.outside t s None S _ _ _ R); [|discriminate|apply dget_None; exact Nn]. apply about_guided. clear - CO. split.
  - auto.
  - intros s1 s2 _ _ Er Eo K. rewrite Er. exact K.
  - intros s1 ru t s2 L K. destruct (learned_order _ _ _ _ L) as (_ & _ & B). rewrite B. exact K.
  - intros s1 n again rs Ec K. destruct (compile_now_inv _ _ _ _ CO Ec) as (r1 & r2 & vals & _ & Ex). cbn. pose proof (compile_exact _ _ _ _ _ _ _ _ Ex) as [(k & ->) _]. apply compile_keys in Ex. destruct Ex as [Ex _].
    rewrite Ex. intros [D|D]; [contradiction|]. unfold compiled_name in D. destruct k; destruct r1; discriminate.
Qed.
Theorem sim_quiescent S : sim_runs O (sim_init t s None) S -> dead S = None -> todo S = [] -> heap S = [] -> forall n, ~ rule_matches (ss S) n.
Proof.
  intros R Hd Et Eh n M. assert (Rk' : all_ranked (ss S)) by (apply (sim_ranked O tie t s None S CO); [discriminate|exact Rk|exact R]).
  apply (sim_NoMatch S R Hd Et Eh (sim_named S R) n); [|exact M]. apply Rk'. destruct M as (ru & b & X & _). exact (dget_Some_key _ _ X).
Qed.
(** Calls of run() and step(): the rules that were compiled by the last call itself are left aside. *)
Theorem session_quiescent S l : session O t s None S l -> heap S = [] ->
  (forall n, In n (dkeys (srules s)) -> ~ rule_matches (ss S) n) /\ (qcompile (sp (ss S)) = false -> forall n, ~ rule_matches (ss S) n).
Proof.
  intros H Eh. destruct (session_rest _ _ _ _ _ _ H) as [_ Et Hd].
  assert (X : forall x, (forall n, ~ rule_matches x n) -> forall y : st, snames y = snames x -> sw y = sw x -> smods y = smods x -> rules_kept (srules x) (srules y) -> forall n, In n (dkeys (srules x)) -> ~ rule_matches y n).
  { intros x Hx y E1 E2 E3 K n Hn (ru & b & G & M). destruct (dget (srules x) n) as [rx|] eqn:Gx; [|apply dget_None in Gx; contradiction]. destruct (K n rx Gx) as (ry & Gy & L & _). apply (Hx n).
    apply (matches_same x (set_rules (srules x) y) n); auto. exists rx, b. split; [exact Gx|]. assert (ru = ry) by congruence. subst ru. rewrite L in M. clear - M. revert M. generalize (rlhs rx) nobind b. intros l b0 b1 H.
    induction H as [b2|k c l b2 b3 b4 H _ IH]; [constructor|]. apply conds_cons with b3; [|exact IH]. destruct H as [name p d rest b5 b6 A B C|name d b5 A]; [apply test_holds with rest; auto|apply query_holds; auto]. }
  assert (Y : forall S0 x, sim_runs O (sim_init t s None) S0 -> todo S0 = [] -> dead S0 = None -> heap S0 = [] -> more_rules (ss S0) x ->
    (forall n, In n (dkeys (srules s)) -> ~ rule_matches x n) /\ (qcompile (sp x) = false -> forall n, ~ rule_matches x n)).
  { intros S0 x R T0 D0 H0 (A & B & C & D & E & F). pose proof (sim_quiescent S0 R D0 T0 H0) as N. split.
    - intros n Hn. apply (X (ss S0) N x B C D A n). destruct (dget (srules s) n) as [r|] eqn:Gr; [|apply dget_None in Gr; contradiction].
      destruct (sim_rules_kept O tie t s None (sim_init t s None) S0 CO ltac:(discriminate) (sim_runs_refl _ _) R n r) as (r' & G' & _); [|exact (dget_Some_key _ _ G')].
      destruct (init_Morning t s Nd) as [_ (_ & R2 & _)]. rewrite R2. exact Gr.
    - intros Q n M. rewrite E in Q. specialize (F Q). apply (N n). exact (matches_same (ss S0) x n F B C D M). }
  destruct (session_shadow O tie t s None CO S l H) as [R|u S0 R E T0 D0|u x S0 R E T0 D0 H0 G].
  - apply (Y S (ss S) R Et Hd Eh). apply more_refl.
  - subst S. apply (Y S0 (ss S0) R T0 D0 Eh). apply more_refl.
  - subst S. exact (Y S0 x R T0 D0 H0 G).
Qed.
End Model.
