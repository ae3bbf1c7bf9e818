(** When a simulation without environment has come to its end, no module is busy. *)
From Coq Require Import Lia.
From Verif Require Import Base BaseFacts Chunks DecMem Buffers BufferFacts Productions ProdSpec LearnFacts Sim SimSpec SimFacts Compile CompileFacts Run RunSpec RunFacts LiftFacts SafeSpec RequestFacts RoundFacts QuietGens QueueFacts SafeFacts FailFacts SafeRuns BrokenFacts QuietFacts QuietSteps QuietRuns QuietEnd ShadowFacts FreeSpec FreeGens FreeQueue FreeSteps FreeRuns FreeWork CommandFacts.
Local Open Scope string_scope.
Local Open Scope list_scope.
Local Open Scope nat_scope.

(** ** The beginning *)

Lemma LU_extra n S : LU S -> LU (extra_made n S).
Proof.
  intros H. unfold extra_made. set (S0 := set_extras (dset (extras S) n (List.length (prs S))) S). cbv zeta. apply (LU_same (added act0 (spawned (KExtra0 n) S0))); [reflexivity|reflexivity|].
  apply LU_added; [discriminate|discriminate|]. apply LU_spawned. apply (LU_same S); auto.
Qed.
Lemma make_extras_LU names : forall S, LU S -> LU (fst (make_extras names S)).
Proof.
  induction names as [|n names IH]; intros S H; [exact H|]. rewrite make_extras_eq. destruct (String.eqb n PROCEDURAL); apply IH; [exact H|]. apply LU_extra, H.
Qed.
Lemma init_LU t s : LU (sim_init t s None).
Proof.
  set (S1 := spawned KProc0 (sim_start t s)).
  assert (M1 : LU S1).
  { apply LU_spawned. constructor; [constructor|intros q []| |].
    - intros [|[|ev]] e He; try discriminate. injection He as <-. discriminate.
    - intros [|[|ev]] e B He; try discriminate. injection He as <-. discriminate. }
  pose proof (make_extras_LU (dkeys (snames s)) S1 M1) as M2. assert (E2 : snd (make_extras (dkeys (snames s)) S1) = inl tt).
  { clear. generalize S1. induction (dkeys (snames s)) as [|n l IH]; intros S; [reflexivity|]. rewrite make_extras_eq. apply IH. }
  destruct (make_extras (dkeys (snames s)) S1) as [S2 x] eqn:Em. cbn [fst snd] in *. subst x. rewrite (init_eq _ _ _ Em).
  apply (LU_same (added act0 S2)); [reflexivity|reflexivity|]. apply LU_added; [discriminate|discriminate|exact M2].
Qed.
Lemma init_Bz i t s : NoDup (dkeys (snames s)) -> sprocs s = [] -> ~ working i s -> Bz i (snames s) (sim_init t s None).
Proof.
  intros Nd Es Nw. destruct (init_Que t s Nd) as [Q Hd]. destruct (init_Morning t s Nd) as [[A B C] (R1 & R2 & R3 & R4 & R5)]. pose proof (init_LU t s) as L. pose proof (SimFacts.init_ok t s None) as HI. set (S := sim_init t s None) in *.
  change (ss (sim_start t s)) with s in R2. change (todo (sim_start t s)) with (@nil work) in R3.
  assert (Nl : forall p x n, proc_at p S = Some x -> ~ locl n (pcode x)) by (intros p x n Hx Hl; specialize (Hd p x Hx); destruct (pcode x); contradiction).
  constructor.
  - exact L.
  - rewrite R2. intros W. contradiction.
  - intros p x Hx. specialize (Hd p x Hx). destruct (pcode x); try contradiction; exact I.
  - intros p x e g n Hx Hk He Hv. destruct (i_own _ HI p x Hx) as (y & Hy & Ro & Vo). assert (y = e) by congruence. subst y. assert (N : evalue e = None); [|congruence]. apply Vo. specialize (Hd p x Hx). destruct (pcode x); try contradiction; discriminate.
  - rewrite R2. split; [reflexivity|]. rewrite Es. intros pr [].
  - intros q p x n _ _ Hx Hl. elim (Nl p x n Hx Hl).
  - intros p x n _ Hx Hl. elim (Nl p x n Hx Hl).
  - rewrite R3. discriminate.
Qed.

(** ** All states *)

Section Model.
Variables (O : oracle) (tie : string -> string -> bool) (t : Z) (s : st).
Hypothesis CO : compiles_with O tie.
Hypothesis H1 : one_request s.
Hypothesis H2 : plain_names s.
Hypothesis V : svars s = nobind.
Hypothesis Es : sprocs s = [].
Hypothesis Nd : NoDup (dkeys (snames s)).
Local Notation Reach := (Reach O t s).
Variable i : nat.
Hypothesis Nw : ~ working i s.
Local Notation nm := (snames s).

Lemma Bz_step S S' : Reach S -> ~ idly_asked i (ss S) -> Bz i nm S -> sim_step O S = Some S' -> Bz i nm S' \/ Broken S'.
Proof.
  intros R Lz B Hs. pose proof (reach_inv O t s S R) as HI. pose proof (reach_mannered O tie t s CO H1 H2 V S R) as Mn.
  destruct (reach_safe O tie t s CO H1 H2 V Es Nd S R) as [[K N]|X]; [|right; exact (broken_step O S S' HI Mn X Hs)].
  destruct (reach_safe O tie t s CO H1 H2 V Es Nd S' (reach_step O t s S S' R Hs)) as [[K' N']|X]; [|right; exact X].
  assert (D : (exists p o l, todo S = WRun p o :: l) \/ forall p o l, todo S <> WRun p o :: l).
  { destruct (todo S) as [|[| |] l]; try (right; intros; discriminate). left. eauto. }
  destruct D as [(p & o & l & Et)|D]; [|left; exact (Bz_calm i nm O S S' HI K N B D Hs (o_dead _ K'))].
  pose proof (o_all _ K) as (a & _ & _ & _ & Td). unfold Todo in Td. rewrite Et in Td. destruct l as [|[| |w] [|? ?]]; try contradiction. destruct Td as (_ & r & Hr & Kr & _).
  unfold sim_step in Hs. rewrite (o_dead _ K), Et in Hs. injection Hs as <-.
  destruct (go_on O p (pcode r) o (set_todo [WEnd w] S)) as [S2 [nx|f]] eqn:Hg.
  - left. exact (run_keeps i nm O p o w r S B HI K Et Hr Kr Lz S2 nx Hg).
  - right. exact (broken_start O S p o w r S2 f HI Mn K N Et Hr Hg).
Qed.
Lemma Bz_all S : Reach S -> (forall S0, Reach S0 -> sim_runs O S0 S -> ~ idly_asked i (ss S0)) -> Bz i nm S \/ Broken S.
Proof.
  intros R. unfold QuietRuns.Reach in R. remember (sim_init t s None) as S0 eqn:E0. induction R as [S0|S0 S1 S2 R IH Hs]; intros Lz.
  - left. subst S0. apply init_Bz; assumption.
  - subst S0. destruct IH as [B|B]; [reflexivity| | |].
    + intros S3 R3 R13. apply Lz; [exact R3|]. econstructor; [exact R13|exact Hs].
    + apply (Bz_step S1); auto. apply Lz; [exact R|]. econstructor; [apply sim_runs_refl|exact Hs].
    + right. exact (broken_step O S1 S2 (reach_inv O t s S1 R) (reach_mannered O tie t s CO H1 H2 V S1 R) B Hs).
Qed.

(** ** The end *)

Hypothesis SE : slow_eyes O.
Lemma free_end S : Reach S -> Quiet O S -> Bz i nm S -> dead S = None -> todo S = [] -> heap S = [] -> ~ working i (ss S).
Proof.
  intros R (d & G & P & Kd) B Hd Et Eh W. destruct (reach_safe O tie t s CO H1 H2 V Es Nd S R) as [[K N]|X]; [|elim (broken_end S X Hd Et Eh)]. pose proof (reach_inv O t s S R) as HI.
  destruct (o_all _ K) as (a & Q & Se & _ & Td). unfold Todo in Td. rewrite Et in Td. subst a.
  assert (Ne : forall x y, at_hand x S y -> False) by (intros x y (X & _); rewrite Eh in X; exact X).
  assert (Nv : forall j x e, proc_at j S = Some x -> pcode x <> KEnd -> event_at (ptarget x) S = Some e -> evalue e <> None -> False).
  { intros j x e Hx Lx He Ve. destruct (q_wait _ _ Q j x Hx) as (y & Hy & Cy & _); [discriminate|exact Lx|]. assert (y = e) by congruence. subst y.
    destruct (g_full _ _ _ G _ _ He Ve) as (q & Hq & _); [congruence|]. rewrite Eh in Hq. exact Hq. }
  assert (Nt : forall j x b n e g, proc_at j S = Some x -> pcode x = KLocal b n e g -> False).
  { intros j x b n e g Hx Hc. destruct (q_wait _ _ Q j x Hx) as (y & Hy & Cy & Ai); [discriminate|congruence|]. rewrite Hc in Ai. destruct Ai as (t0 & Ro).
    apply (Nv j x y Hx); [congruence|exact Hy|exact (g_time _ _ _ G _ _ _ Hy Ro)]. }
  assert (Np : sprocs (ss S) = []).
  { destruct P as (r0 & P0 & X). destruct d as [| |k qm| |qm| | | |]; try (exact (proj2 Kd)).
    - destruct X as (_ & _ & X). elim (Ne _ _ X).
    - destruct X as (f & p & r & _ & _ & _ & _ & X & _). elim (Ne _ _ X).
    - destruct X as (f & p & r & _ & A & _ & n & e & g & X & _). elim (Nt p r true n e g A X).
    - destruct X as (f & p & r & X1 & X2 & X3 & X4). exfalso. destruct (i_own _ HI p r X2) as (y & Hy & _ & Vy). rewrite X3 in Hy. apply (Nv 0 r0 y P0); [congruence|exact Hy|]. intros D. apply Vy in D. contradiction. }
  destruct (b_work _ _ _ B W) as [C|[(p & n & g & A & _)|[(E & n & pro & g & x & e & (y & Hy & Hc) & _ & Hx & He & Hv & _)|(p & n & e & g & (x & Hx & Hc) & _)]]].
  - destruct C as (id & n & m & c & bs & z & C). rewrite Np in C. exact C.
  - destruct A as [(x & Hx & Hc)|(e & x & Hx & Hc)]; [|exact (Nt p x false n e g Hx Hc)].
    destruct (q_wait _ _ Q p x Hx) as (y & Hy & _ & Ai); [discriminate|congruence|]. rewrite Hc in Ai. destruct Ai as (_ & q & Hq & _). rewrite Eh in Hq. exact Hq.
  - destruct (q_wait _ _ Q E y Hy) as (z & Hz & _ & Ai); [discriminate|congruence|]. pose proof (i_fits _ HI E y Hy) as Ft. rewrite Hc in Ft. destruct Ft as (r' & Hr' & _ & Et').
    assert (r' = x) by congruence. subst r'. apply (Nv E y e Hy); [congruence|congruence|congruence].
  - exact (Nt p x true n e g Hx Hc).
Qed.
Theorem sim_free S : sim_runs O (sim_init t s None) S -> dead S = None -> todo S = [] -> heap S = [] ->
  (forall S0, sim_runs O (sim_init t s None) S0 -> sim_runs O S0 S -> ~ idly_asked i (ss S0)) -> ~ working i (ss S).
Proof.
  intros R Hd Et Eh Lz. destruct (Bz_all S R Lz) as [B|X]; [|elim (broken_end S X Hd Et Eh)].
  destruct (fin_all O tie t s CO H1 H2 V Es Nd SE S R) as [S Qu _|S X|S S1 Nt _ _].
  - exact (free_end S R Qu B Hd Et Eh).
  - elim (broken_end S X Hd Et Eh).
  - contradiction.
Qed.
(** Calls of run() and step(). *)
Theorem session_free S l : session O t s None S l -> heap S = [] ->
  (forall S0, sim_runs O (sim_init t s None) S0 -> ~ idly_asked i (ss S0)) -> ~ working i (ss S).
Proof.
  intros H Eh Lz. destruct (session_rest _ _ _ _ _ _ H) as [_ Et Hd].
  destruct (session_shadow O tie t s None CO S l H) as [R|u S0 R E T0 D0|u x S0 R E T0 D0 H0 (A & B & C & D & _)].
  - apply (sim_free S R Hd Et Eh). intros S0 R0 _. exact (Lz S0 R0).
  - subst S. apply (sim_free S0 R D0 T0 Eh). intros S1 R1 _. exact (Lz S1 R1).
  - subst S. intros (m & Hm & W). apply (sim_free S0 R D0 T0 H0).
    + intros S1 R1 _. exact (Lz S1 R1).
    + exists m. split; [|exact W]. change (ss _) with x in Hm. rewrite D in Hm. exact Hm.
Qed.
End Model.

(** The same from what the rules say. *)
Theorem commands_free O tie t s i S : compiles_with O tie -> one_request s -> plain_names s -> svars s = nobind -> sprocs s = [] -> NoDup (dkeys (snames s)) -> slow_eyes O ->
  ~ working i s -> commanded i s -> sim_runs O (sim_init t s None) S -> dead S = None -> todo S = [] -> heap S = [] -> ~ working i (ss S).
Proof.
  intros CO H1 H2 H3 H4 H5 SE Nw Hc R D T H. apply (sim_free O tie t s CO H1 H2 H3 H4 H5 i Nw SE S R D T H). intros S0 R0 _. exact (never_idle O tie t s i S0 CO H4 Hc R0).
Qed.
Theorem commands_session_free O tie t s i S l : compiles_with O tie -> one_request s -> plain_names s -> svars s = nobind -> sprocs s = [] -> NoDup (dkeys (snames s)) -> slow_eyes O ->
  ~ working i s -> commanded i s -> session O t s None S l -> heap S = [] -> ~ working i (ss S).
Proof.
  intros CO H1 H2 H3 H4 H5 SE Nw Hc R H. apply (session_free O tie t s CO H1 H2 H3 H4 H5 i Nw SE S l R H). intros S0 R0. exact (never_idle O tie t s i S0 CO H4 Hc R0).
Qed.
