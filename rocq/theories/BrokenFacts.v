(** In a simulation without environment, the failure of any process ends the run with an exception. *)
From Coq Require Import Lia Sorted.
From Verif Require Import Base BaseFacts Chunks DecMem Buffers BufferFacts Productions ProdSpec LearnFacts Sim SimFacts CompileFacts Run RunSpec RunFacts LiftFacts SafeSpec RequestFacts QueueFacts SafeFacts SafeSteps SafeMain FailFacts SafeRuns.
Local Open Scope string_scope.
Local Open Scope list_scope.
Local Open Scope nat_scope.

(** A failure that has not been dealt with: its event is in the queue; it is handed to a process that waits for
    it; this process takes it up; or the run ends. *)
Definition Stage (S : sim) : Prop :=
  (exists ev e x, event_at ev S = Some e /\ evalue e = Some (Bad (TExn x)) /\ (forall p, erole e <> RInt p) /\
     ((edefused e = false /\ ecbs e <> None /\ exists q, In q (heap S) /\ qev q = ev) \/
      (exists p w, todo S = [WCb ev (CResume p); WEnd w]) \/ (edefused e = false /\ todo S = [WEnd ev]))) \/
  (exists p w x, todo S = [WRun p (Bad (TExn x)); WEnd w]).
Definition Broken (S : sim) : Prop := (SafeFacts.Ok S /\ Neat S /\ Stage S) \/ (exists p0 q0, Doom p0 q0 S) \/ Last S \/ Fallen S.

Lemma broken_end S : Broken S -> dead S = None -> todo S = [] -> heap S = [] -> False.
Proof.
  intros [(_ & _ & [(ev & e & x & He & Hv & _ & H)|(p & w & x & H)])|[(p0 & q0 & D)|[(L1 & ev & e & x & L2 & _)|(x & F)]]] Hd Ht Hh; try congruence.
  - destruct H as [(_ & _ & q & H & _)|[(p & w & H)|(_ & H)]]; try congruence. rewrite Hh in H. exact H.
  - pose proof (d_in _ _ _ D) as H. rewrite Hh in H. exact H.
Qed.

Definition Pending (S : sim) (ev : nat) (x : exn) : Prop :=
  (exists e, event_at ev S = Some e /\ evalue e = Some (Bad (TExn x)) /\ edefused e = false /\ ecbs e <> None /\ forall p, erole e <> RInt p) /\ exists q, In q (heap S) /\ qev q = ev.
Lemma pending_stage S ev x : Pending S ev x -> Stage S.
Proof. intros [(e & A & B & C & D & F) E]. left. exists ev, e, x. split; [exact A|]. split; [exact B|]. split; [exact F|]. left. auto. Qed.
Lemma pending_event S i y y' ev x : Pending S ev x -> event_at i S = Some y -> erole y' = erole y -> (i = ev -> ecbs y <> None -> evalue y' = evalue y /\ edefused y' = edefused y /\ ecbs y' <> None) -> Pending (changed i y' S) ev x.
Proof.
  intros [(e & A & B & C & D & G) E] Hy Hr H. split; [|exact E]. destruct (Nat.eqb_spec ev i) as [->|N].
  - assert (y = e) by congruence. subst y. destruct (H eq_refl D) as (F1 & F2 & F3). exists y'. split; [rewrite (at_changed _ _ _ _ _ A), Nat.eqb_refl; reflexivity|]. split; [congruence|]. split; [congruence|]. split; [exact F3|]. intros p. rewrite Hr. apply G.
  - exists e. split; [|auto]. rewrite (at_changed _ _ _ _ _ Hy). destruct (Nat.eqb_spec ev i); [contradiction|exact A].
Qed.
Lemma pending_gro S S' ev x : Gro S S' -> Pending S ev x -> Pending S' ev x.
Proof.
  intros G [(e & A & B & C & D & F) (q & Hq & Eq)]. destruct (r_old _ _ G _ _ A) as (e' & A' & L1 & L2 & L3 & L4). split.
  - exists e'. split; [exact A'|]. split; [destruct L4 as [L4|[L4 _]]; congruence|]. split; [congruence|]. split; [congruence|]. intros p. rewrite L1. apply F.
  - destruct (r_heap _ _ G) as (new & Hn & _). exists q. split; [rewrite Hn; apply in_or_app; left; exact Hq|exact Eq].
Qed.
Lemma pending_hand_over S p r c i ev x : Pending S ev x -> proc_at p S = Some r -> Pending (hand_over p i (set_prc p (fun r => MkPrc (pkind r) (pown r) (ptarget r) c) S)) ev x.
Proof.
  intros H Hr. rewrite (set_prc_at _ _ _ _ Hr). set (r1 := MkPrc (pkind r) (pown r) (ptarget r) c). set (S1 := set_prs (upd (prs S) p r1) S). assert (H1 : Pending S1 ev x) by exact H.
  assert (Hr1 : proc_at p S1 = Some r1) by (unfold S1; rewrite (pat_upd p p r1 r S Hr), Nat.eqb_refl; reflexivity).
  unfold hand_over. destruct (event_at i S1) as [e|] eqn:He; [|exact H1].
  assert (Wait : ecbs e <> None -> Pending (set_prc p (fun r => MkPrc (pkind r) (pown r) i (pcode r)) (exec_ (add_cb i (CResume p)) S1)) ev x).
  { intros Hn. unfold exec_, add_cb, set_event, upd_. cbn [fst]. change (nth_error (evs S1) i) with (event_at i S1). rewrite He. set (e' := MkEvt _ _ _ _). fold (changed i e' S1).
    assert (H2 : Pending (changed i e' S1) ev x) by (apply (pending_event S1 i e); auto; intros _ _; split; [reflexivity|]; split; [reflexivity|]; unfold e'; cbn [ecbs]; destruct (ecbs e); congruence).
    assert (Hr2 : proc_at p (changed i e' S1) = Some r1) by exact Hr1. rewrite (set_prc_at _ _ _ _ Hr2). exact H2. }
  assert (Wait' : Pending (set_prc p (fun r => MkPrc (pkind r) (pown r) i (pcode r)) (exec_ (add_cb i (CResume p)) S1)) ev x \/ ecbs e = None) by (destruct (ecbs e); [left; apply Wait; discriminate|right; reflexivity]).
  destruct (ecbs e) as [k|] eqn:Ek; [apply Wait; discriminate|]. destruct (evalue e) as [u|] eqn:Eu.
  - rewrite (defuse_eq i e u S1 He). destruct u as [v|t]; cbn [defused]; [exact H1|]. change (Pending (changed i (MkEvt (erole e) (evalue e) true (ecbs e)) S1) ev x). apply (pending_event S1 i e); auto. intros _ D. congruence.
  - unfold exec_, add_cb, set_event, upd_. cbn [fst]. change (nth_error (evs S1) i) with (event_at i S1). rewrite He. set (e' := MkEvt _ _ _ _). fold (changed i e' S1).
    assert (H2 : Pending (changed i e' S1) ev x) by (apply (pending_event S1 i e); auto; intros _ D; congruence).
    assert (Hr2 : proc_at p (changed i e' S1) = Some r1) by exact Hr1. rewrite (set_prc_at _ _ _ _ Hr2). exact H2.
Qed.

(** A process that has not ended: its own event is pending. *)
Lemma own_open a p r S : Inv S -> Que a S -> Neat S -> proc_at p S = Some r -> pcode r <> KEnd -> exists e, event_at (pown r) S = Some e /\ edefused e = false /\ ecbs e <> None /\ evalue e = None.
Proof.
  intros HI Q N Hr Kc. destruct (i_own _ HI p r Hr) as (e & He & _ & V). apply V in Kc. exists e. split; [exact He|]. split; [exact (n_def _ N _ _ He Kc)|]. split; [|exact Kc].
  intros D. destruct (q_cbs _ _ Q _ _ He) as [[_ X]|[X|[(p' & r' & X & _)|(p' & X & _)]]]; congruence.
Qed.
Lemma go_bad O p c x S : c <> KEnd -> hasenv S = false -> ~ FailFacts.outside c -> go_on O p c (Bad (TExn x)) S = (S, inr (TExn x)).
Proof. intros Hc _ Ho. destruct c as [| | |[|k]| | | | | | | | | | |]; try reflexivity; try contradiction; elim Ho; exact I. Qed.

Lemma failed_pending p r e x S : proc_at p S = Some r -> event_at (pown r) S = Some e -> erole e = ROwn p -> edefused e = false -> ecbs e <> None -> Pending (finished p r (Bad (TExn x)) e S) (pown r) x.
Proof.
  intros Hp He Hr Hd Hc. split.
  - exists (valued (Bad (TExn x)) e). split; [change (event_at (pown r) (changed (pown r) (valued (Bad (TExn x)) e) S) = Some (valued (Bad (TExn x)) e)); rewrite (at_changed _ _ _ _ _ He), Nat.eqb_refl; reflexivity|].
    split; [reflexivity|]. split; [exact Hd|]. split; [exact Hc|]. intros i. cbn [valued erole]. congruence.
  - eexists. split; [apply in_or_app; right; left; reflexivity|reflexivity].
Qed.
Lemma finished_pending p r o e S ev x : Pending S ev x -> proc_at p S = Some r -> event_at (pown r) S = Some e -> evalue e = None -> Pending (finished p r o e S) ev x.
Proof.
  intros [(y & A & B & C & D & G) (q & Hq & Eq)] Hp He Hv. split.
  - exists y. split; [|auto]. change (event_at ev (changed (pown r) (valued o e) S) = Some y). rewrite (at_changed _ _ _ _ _ He). destruct (Nat.eqb_spec ev (pown r)); [congruence|exact A].
  - exists q. split; [apply in_or_app; left; exact Hq|exact Eq].
Qed.

Lemma stage_step O S S' : Inv S -> mannered (ss S) -> SafeFacts.Ok S -> Neat S -> Stage S -> sim_step O S = Some S' -> Broken S'.
Proof.
  intros HI Mn K N Sg H. pose proof (neat_step O S S' HI K N H) as N2. destruct (ok_step O S S' HI Mn K N H) as [K2|[D|F]]; [left|right; left; exact D|right; right; right; exact F].
  split; [exact K2|]. split; [exact N2|]. destruct (o_all _ K) as (a & Q & Se & _ & Td). unfold sim_step in H. rewrite (o_dead _ K) in H. unfold Todo in Td. destruct (todo S) as [|w l] eqn:Et.
  - subst a. destruct Sg as [(ev & e & x & He & Hv & Nr & [(Hd & Hc & q0 & Hq0 & Eq0)|[(p & w & D)|(_ & D)]])|(p & w & x & D)]; try congruence.
    destruct (pop_min (heap S)) as [[q h]|] eqn:Ep; [|discriminate]. cbv zeta in H. change (event_at (qev q) (set_now (qtime q) (set_queue (eid S) h S))) with (event_at (qev q) S) in H.
    destruct (pop_min_split _ _ _ Ep) as (l1 & l2 & E1 & E2 & Hmin). assert (Hq : In q (heap S)) by (rewrite E1; apply in_or_app; right; left; reflexivity).
    destruct (q_heap _ _ Q q Hq) as (_ & _ & e1 & He1 & _). rewrite He1 in H. unfold exec_, set_event, upd_ in H. cbn [fst evs set_now set_queue] in H. change (nth_error (evs S) (qev q)) with (event_at (qev q) S) in H. rewrite He1 in H. injection H as <-.
    set (e2 := MkEvt (erole e1) (evalue e1) (edefused e1) None). set (S2 := set_todo _ _).
    assert (At : forall i, event_at i S2 = if Nat.eqb i (qev q) then Some e2 else event_at i S) by (intros i; exact (at_changed i (qev q) e2 e1 S He1)).
    left. destruct (Nat.eqb_spec ev (qev q)) as [Ee|Ne].
    + assert (e1 = e) by congruence. subst e1. exists ev, e2, x. split; [rewrite At, Ee, Nat.eqb_refl; reflexivity|]. split; [exact Hv|]. split; [exact Nr|].
      destruct (q_cbs _ _ Q _ _ He1) as [[X _]|[X|[(p' & r' & X & _)|(p' & X & X2)]]]; [contradiction| | |elim (Nr p' X2)].
      * right. right. split; [exact Hd|]. unfold S2. cbn [todo set_todo]. rewrite X, Ee. reflexivity.
      * right. left. exists p', (qev q). unfold S2. cbn [todo set_todo]. rewrite X, Ee. reflexivity.
    + exists ev, e, x. split; [rewrite At; destruct (Nat.eqb_spec ev (qev q)); [contradiction|exact He]|]. split; [exact Hv|]. split; [exact Nr|]. left. split; [exact Hd|]. split; [exact Hc|]. exists q0. split; [|exact Eq0].
      unfold S2. cbn [heap set_todo]. change (In q0 h). rewrite E2. rewrite E1 in Hq0. apply in_app_or in Hq0. apply in_or_app. destruct Hq0 as [X|[X|X]]; auto. subst q0. congruence.
  - injection H as <-. set (S1 := set_todo l S) in *.
    assert (Sg' : (exists ev x, Pending S1 ev x) \/ (exists ev e x p w', event_at ev S = Some e /\ evalue e = Some (Bad (TExn x)) /\ w = WCb ev (CResume p) /\ l = [WEnd w']) \/ (exists ev e x, event_at ev S = Some e /\ evalue e = Some (Bad (TExn x)) /\ edefused e = false /\ w = WEnd ev) \/
      exists p w' x, w = WRun p (Bad (TExn x)) /\ l = [WEnd w']).
    { destruct Sg as [(ev & e & x & He & Hv & Nr & [(Hd & Hc & q0 & Hq0 & Eq0)|[(p & w' & D)|(Hd & D)]])|(p & w' & x & D)].
      - left. exists ev, x. split; [exists e; auto|exists q0; auto].
      - right. left. exists ev, e, x, p, w'. rewrite Et in D. injection D as -> ->. auto.
      - right. right. left. exists ev, e, x. rewrite Et in D. injection D as -> ->. auto.
      - right. right. right. exists p, w', x. rewrite Et in D. injection D as -> ->. auto. }
    clear Sg. destruct Sg' as [(ev & x & Pe)|[(ev & e & x & p & w' & He & Hv & -> & ->)|[(ev & e & x & He & Hv & Hd & ->)|(p & w' & x & -> & ->)]]].
    + destruct w as [ev1 [p|p|c]|p o|ev1]; cbn [work_off] in *.
      * destruct l as [|[| |w'] l]; try contradiction. destruct l; [|contradiction]. destruct Td as (-> & r & e1 & o & Hr & He1 & Ve1 & Kc & Ac). change (event_at ev1 S1) with (event_at ev1 S) in *. rewrite He1, Ve1 in *. rewrite (defuse_eq ev1 e1 o S1) in * by exact He1.
        destruct o as [v|t]; cbn [defused] in *; [apply (pending_stage _ ev x); exact Pe|]. pose proof (s_vals _ _ _ Se _ _ He1) as Sd. unfold sound in Sd. rewrite Ve1 in Sd. destruct Sd as [(y & ->)|[_ (p' & Rp)]]; [right; eexists _, _, _; reflexivity|].
        apply (pending_stage _ ev x). refine (pending_event S1 ev1 e1 (MkEvt (erole e1) (evalue e1) true (ecbs e1)) ev x Pe He1 eq_refl _). intros -> _. destruct Pe as [(y & A & _ & _ & _ & B) _]. assert (y = e1) by (change (event_at ev S = Some y) in A; congruence). subst y. elim (B p' Rp).
      * destruct (ended p S1); [exact (pending_stage _ ev x Pe)|]. change (nth_error (prs S1) p) with (proc_at p S1) in *. destruct (proc_at p S1) as [r|] eqn:Hr; [|exact (pending_stage _ ev x Pe)].
        unfold exec_, set_event, upd_ in *. cbn [fst] in *. change (nth_error (evs S1) (ptarget r)) with (event_at (ptarget r) S1) in *. destruct (event_at (ptarget r) S1) as [e|] eqn:He; [|apply (pending_stage _ ev x); exact Pe].
        apply (pending_stage _ ev x). refine (pending_event S1 (ptarget r) e (MkEvt (erole e) (evalue e) (edefused e) (match ecbs e with Some l => Some (remove_cb (CResume p) l) | None => None end)) ev x Pe He eq_refl _). intros _ Ce. split; [reflexivity|]. split; [reflexivity|]. cbn [ecbs]. destruct (ecbs e); congruence.
      * contradiction.
      * destruct l as [|[| |w'] l]; try contradiction. destruct l; [|contradiction]. destruct Td as (-> & r & Hr & Kc & Ac). change (nth_error (prs S1) p) with (proc_at p S) in *. rewrite Hr in *.
        pose proof (run_parts O p o [WEnd w'] r S HI (o_env _ K) Et Hr Kc) as R. cbv zeta in R. fold S1 in R. destruct (go_on O p (pcode r) o S1) as [S2 y]. cbn [fst] in R. destruct R as (H2 & G & Hr2). pose proof (pending_gro _ _ _ _ G Pe) as P2.
        destruct (i_own _ H2 p r Hr2) as (eo & Heo & _ & Vo). apply Vo in Kc. apply (pending_stage _ ev x). clear K2 N2.
        destruct y as [[c ev'|v]|t]; [exact (pending_hand_over S2 p r c ev' ev x P2 Hr2)|rewrite (end_eq p r _ eo S2 Hr2 Heo); apply finished_pending; assumption|rewrite (end_eq p r _ eo S2 Hr2 Heo); apply finished_pending; assumption].
      * apply (pending_stage _ ev x). clear K2 N2. change (event_at ev1 S1) with (event_at ev1 S). destruct (event_at ev1 S) as [e|]; [|exact Pe]. destruct (evalue e) as [[v|t]|]; try exact Pe. destruct (edefused e); exact Pe.
    + cbn [work_off]. change (event_at ev S1) with (event_at ev S). rewrite He, Hv. right. exists p, w', x. reflexivity.
    + exfalso. pose proof (o_dead _ K2) as D. cbn [work_off] in D. change (event_at ev S1) with (event_at ev S) in D. rewrite He, Hv, Hd in D. discriminate.
    + destruct Td as (-> & r & Hr & Kc & Ac). cbn [work_off] in *. change (nth_error (prs S1) p) with (proc_at p S) in *. rewrite Hr in *. pose proof (i_kind _ HI p r Hr) as [Hk Hkn]. destruct Hk as [Hk|Hk]; [contradiction|].
      assert (Ho : ~ FailFacts.outside (pcode r)).
      { intros Ho. assert (X : hasenv S = true) by (apply (i_env _ HI p r Hr); rewrite Hk; destruct (pcode r); try contradiction; exact I). rewrite (o_env _ K) in X. discriminate. }
      rewrite (go_bad O p (pcode r) x S1 Kc (o_env _ K) Ho) in *.
      destruct (i_own _ HI p r Hr) as (e & He & Ro & Ve). apply Ve in Kc as Vn. destruct (own_open _ p r S HI Q N Hr Kc) as (e' & He' & A & B & _). assert (e' = e) by congruence. subst e'.
      rewrite (end_eq p r _ e S1 Hr He). apply (pending_stage _ (pown r) x). apply failed_pending; assumption.
Qed.
Lemma broken_step O S S' : Inv S -> mannered (ss S) -> Broken S -> sim_step O S = Some S' -> Broken S'.
Proof.
  intros HI Mn [(K & N & Sg)|[(p0 & q0 & D)|[L|F]]] H.
  - exact (stage_step O S S' HI Mn K N Sg H).
  - destruct (doom_step O p0 q0 S S' HI D H) as [X|X]; [right; left; eauto|right; right; exact X].
  - right. right. right. exact (last_step O S S' L H).
  - rewrite (fallen_step O S F) in H; discriminate.
Qed.

(** A process fails. *)
Lemma broken_start O S p o ev r S2 t : Inv S -> mannered (ss S) -> SafeFacts.Ok S -> Neat S -> todo S = [WRun p o; WEnd ev] -> proc_at p S = Some r ->
  go_on O p (pcode r) o (set_todo [WEnd ev] S) = (S2, inr t) -> Broken (work_off O (WRun p o) (set_todo [WEnd ev] S)).
Proof.
  intros HI Mn K N Et Hr Hg.
  assert (St : sim_step O S = Some (work_off O (WRun p o) (set_todo [WEnd ev] S))) by (unfold sim_step; rewrite (o_dead _ K), Et; reflexivity).
  pose proof (neat_step O _ _ HI K N St) as N3. destruct (run_step O p o ev S HI Mn K N Et) as [K3|(q0 & D)]; [left|right; left; eauto].
  split; [exact K3|]. split; [exact N3|]. destruct (o_all _ K) as (a & Q & Se & _ & Td). unfold Todo in Td. rewrite Et in Td. destruct Td as (-> & r1 & Hr1 & Kc & Ac). assert (r1 = r) by congruence. subst r1.
  pose proof (run_parts O p o [WEnd ev] r S HI (o_env _ K) Et Hr Kc) as R. cbv zeta in R. rewrite Hg in R. cbn [fst] in R. destruct R as (H2 & G & Hr2).
  destruct (i_own _ H2 p r Hr2) as (e & He & Ro & Vo). apply Vo in Kc as Vn.
  assert (E : work_off O (WRun p o) (set_todo [WEnd ev] S) = finished p r (Bad t) e S2).
  { cbn [work_off]. change (nth_error (prs (set_todo [WEnd ev] S)) p) with (proc_at p S). rewrite Hr, Hg. exact (end_eq p r _ e S2 Hr2 He). }
  rewrite E in *. destruct (o_all _ K3) as (a3 & Q3 & Se3 & _).
  assert (At : event_at (pown r) (finished p r (Bad t) e S2) = Some (valued (Bad t) e)) by (change (event_at (pown r) (changed (pown r) (valued (Bad t) e) S2) = Some (valued (Bad t) e)); rewrite (at_changed _ _ _ _ _ He), Nat.eqb_refl; reflexivity).
  pose proof (s_vals _ _ _ Se3 _ _ At) as Sd. unfold sound in Sd. cbn [valued evalue erole edefused] in Sd. destruct Sd as [(x & ->)|[_ (p' & X)]]; [|congruence].
  apply (pending_stage _ (pown r) x). destruct (own_open _ p r S HI Q N Hr Kc) as (e0 & He0 & A & B & _). destruct (r_old _ _ G _ _ He0) as (e1 & He1 & L1 & L2 & L3 & _). assert (e1 = e) by congruence. subst e1.
  apply failed_pending; auto; congruence.
Qed.

(** ** Every run *)

Section Model.
Variables (O : oracle) (tie : string -> string -> bool) (t : Z) (s : st).
Hypothesis CO : compiles_with O tie.
Hypothesis H1 : one_request s.
Hypothesis H2 : plain_names s.
Hypothesis V : svars s = nobind.
Hypothesis Es : sprocs s = [].
Hypothesis Nd : NoDup (dkeys (snames s)).

Lemma runs_step_first S1 S2 S3 : sim_step O S1 = Some S2 -> sim_runs O S2 S3 -> sim_runs O S1 S3.
Proof. intros H R. induction R as [|S2 S4 S5 R IH Hs]; [econstructor; [constructor|exact H]|]. econstructor; [exact (IH H)|exact Hs]. Qed.
Lemma runs_trans S1 S2 S3 : sim_runs O S1 S2 -> sim_runs O S2 S3 -> sim_runs O S1 S3.
Proof. intros R1 R2. induction R2 as [|S2 S4 S5 R IH Hs]; [exact R1|]. econstructor; [exact (IH R1)|exact Hs]. Qed.
Lemma sim_broken S S' : sim_runs O (sim_init t s None) S -> Broken S -> sim_runs O S S' -> Broken S'.
Proof.
  intros R B R'. induction R' as [|S1 S2 S3 R' IH Hs]; [exact B|]. specialize (IH R B). pose proof (runs_trans _ _ _ R R') as R2.
  exact (broken_step O S2 S3 (sim_ok O t s None S2 R2) (sim_mannered O tie CO t s S2 H1 H2 V R2) IH Hs).
Qed.
Lemma broken_stop S : Broken S -> sim_step O S = None -> exists x, dead S = Some (TExn x).
Proof.
  intros B H. assert (X : dead S = None -> todo S = [] /\ heap S = []).
  { intros D. unfold sim_step in H. rewrite D in H. destruct (todo S) as [|w l]; [|discriminate]. split; [reflexivity|]. destruct (pop_min (heap S)) as [[q h]|] eqn:E; [cbv zeta in H; destruct (event_at (qev q) _); discriminate|]. destruct (heap S) as [|q h]; [reflexivity|]. cbn in E. destruct (pop_min h) as [[m y]|]; [destruct (earlier q m)|]; discriminate. }
  assert (Y : dead S = None -> False) by (intros D; destruct (X D) as [X1 X2]; exact (broken_end S B D X1 X2)).
  destruct B as [(K & _)|[(p0 & q0 & D)|[[L _]|F]]]; [elim (Y (o_dead _ K))|elim (Y (d_dead _ _ _ D))|elim (Y L)|exact F].
Qed.
Theorem sim_failure S f S' : sim_runs O (sim_init t s None) S -> dead S = None -> raising O S f -> sim_runs O S S' -> sim_step O S' = None -> exists x, dead S' = Some (TExn x).
Proof.
  intros R Hd (p & o & l & r & S2 & Et & Hr & Hg) R' Hn. apply broken_stop; [|exact Hn]. set (S1 := work_off O (WRun p o) (set_todo l S)).
  assert (Hs : sim_step O S = Some S1) by (unfold sim_step; rewrite Hd, Et; reflexivity).
  assert (B1 : Broken S1).
  { pose proof (sim_ok O t s None S R) as HI. pose proof (sim_mannered O tie CO t s S H1 H2 V R) as Mn. destruct (sim_safe O tie CO t s H1 H2 V Es Nd S R) as [[K N]|Bad].
    - pose proof (o_all _ K) as (a & _ & _ & _ & Td). unfold Todo in Td. rewrite Et in Td. destruct l as [|[| |ev] l]; try contradiction. destruct l; [|contradiction]. exact (broken_start O S p o ev r S2 f HI Mn K N Et Hr Hg).
    - apply (broken_step O S S1 HI Mn); [right; exact Bad|exact Hs]. }
  destruct R' as [|S3 S4 S5 R' Hs']; [congruence|]. 
  assert (X : sim_runs O S1 S5).
  { clear - Hs R' Hs'. revert S5 Hs'. induction R' as [S3|S3 S6 S7 R' IH Hs2]; intros S5 Hs'; [assert (S1 = S5) by congruence; subst; constructor|]. econstructor; [exact (IH Hs _ Hs2)|exact Hs']. }
  refine (sim_broken S1 S5 _ B1 X). econstructor; [exact R|exact Hs].
Qed.
End Model.
