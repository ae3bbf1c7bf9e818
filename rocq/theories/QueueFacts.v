(** The queue of a simulation without environment: who waits for what. *)
From Coq Require Import Lia Sorted.
From Verif Require Import Base BaseFacts Chunks DecMem Buffers BufferFacts Productions ProdSpec LearnFacts Sim SimFacts RunFacts.
Local Open Scope string_scope.
Local Open Scope list_scope.
Local Open Scope nat_scope.

(** ** Elementary changes of a simulation *)

Definition added (e : evt) (S : sim) : sim := set_evs (evs S ++ [e]) S.
Definition queued (prio : nat) (d : Z) (ev : nat) (S : sim) : sim :=
  set_queue (Datatypes.S (eid S)) (heap S ++ [MkQ (now S + d) prio (eid S) ev]) S.
Definition changed (ev : nat) (e : evt) (S : sim) : sim := set_evs (upd (evs S) ev e) S.
Definition timed (d : Z) (S : sim) : sim :=
  queued NORMAL d (List.length (evs S)) (added (MkEvt (RTime (now S + d)) (Some (Good XUnit)) false (Some [])) S).
Definition struck (p : nat) (S : sim) : sim :=
  queued URGENT 0 (List.length (evs S)) (added (MkEvt (RInt p) (Some (Bad TInterrupt)) true (Some [CInt p])) S).
Definition valued (o : outcome) (e : evt) : evt := MkEvt (erole e) (Some o) (edefused e) (ecbs e).
Definition fired (ev : nat) (e : evt) (S : sim) : sim := queued NORMAL 0 ev (changed ev (valued (Good XUnit) e) S).

Lemma timeout_eq d S : timeout d S = if Z.ltb d 0 then (S, inr (TExn EValue)) else (timed d S, inl (List.length (evs S))).
Proof. unfold timeout. destruct (Z.ltb d 0); reflexivity. Qed.
Lemma succeed_eq ev e S : event_at ev S = Some e -> evalue e = None -> succeed ev S = (fired ev e S, inl tt).
Proof.
  intros H V. unfold succeed, bind, get, trig, triggered. rewrite H, V. unfold set_event, upd_, schedule. change (nth_error (evs S) ev) with (event_at ev S). rewrite H. reflexivity.
Qed.
Lemma interrupt_eq a p S : ended p S = false -> a <> p -> interrupt a p S = (struck p S, inl tt).
Proof. intros H N. unfold interrupt, bind, get. rewrite H. destruct (Nat.eqb_spec a p); [contradiction|]. reflexivity. Qed.

Lemma at_added ev e S : event_at ev (added e S) = if Nat.eqb ev (List.length (evs S)) then Some e else event_at ev S.
Proof.
  unfold event_at, added. cbn [evs set_evs]. destruct (Nat.eqb_spec ev (List.length (evs S))) as [->|N]; [apply nth_snoc_new|].
  destruct (Nat.lt_ge_cases ev (List.length (evs S))) as [L|L]; [apply nth_error_app1; exact L|].
  rewrite (proj2 (nth_error_None _ _)) by (rewrite app_length; cbn; lia). symmetry. apply nth_error_None. exact L.
Qed.
Lemma at_old ev e S : event_at ev S = Some e -> ev < List.length (evs S).
Proof. intros H. apply nth_error_Some. unfold event_at in H. congruence. Qed.
Lemma at_added_old ev x e S : event_at ev S = Some x -> event_at ev (added e S) = Some x.
Proof. intros H. rewrite at_added. apply at_old in H as L. destruct (Nat.eqb_spec ev (List.length (evs S))); [lia|exact H]. Qed.
Lemma at_changed i ev e x S : event_at ev S = Some x -> event_at i (changed ev e S) = if Nat.eqb i ev then Some e else event_at i S.
Proof. intros H. unfold event_at, changed. cbn [evs set_evs]. destruct (Nat.eqb_spec i ev) as [->|N]; [apply (upd_same _ _ _ x); exact H|apply upd_other; exact N]. Qed.
Lemma pat_old p r S : proc_at p S = Some r -> p < List.length (prs S).
Proof. intros H. apply nth_error_Some. unfold proc_at in H. congruence. Qed.
Lemma pat_upd i p r x S : proc_at p S = Some x -> proc_at i (set_prs (upd (prs S) p r) S) = if Nat.eqb i p then Some r else proc_at i S.
Proof. intros H. unfold proc_at. cbn [prs set_prs]. destruct (Nat.eqb_spec i p) as [->|N]; [apply (upd_same _ _ _ x); exact H|apply upd_other; exact N]. Qed.

(** ** Who waits for what *)

Definition urgent (r : role) : bool := match r with RInit _ | RInt _ => true | _ => false end.

(** A process at [c] waits for the event [ev]. *)
Definition aims (S : sim) (p : nat) (c : code) (ev : nat) (e : evt) : Prop :=
  match c with
  | KProc0 | KExtra0 _ | KLocal0 _ _ _ => erole e = RInit p /\ exists q, In q (heap S) /\ qev q = ev
  | KProcAct => ev = pact S
  | KProcZero _ | KLocal _ _ _ _ => exists t, erole e = RTime t
  | KProcPro _ | KExtraPro _ _ | KExtraCont _ _ => exists pro, erole e = ROwn pro
  | KExtraAct n => dget (acts S) n = Some ev
  | _ => False
  end.
(** Process 0 carries out the rules; one process belongs to each buffer. *)
Definition who (S : sim) (p : nat) (c : code) : Prop :=
  match c with
  | KProc0 | KProcPro _ | KProcAct | KProcZero _ => p = 0
  | KExtra0 n | KExtraAct n | KExtraPro n _ | KExtraCont n _ => dget (extras S) n = Some p
  | KEnv0 _ | KEnvWait _ _ | KEnvP0 _ | KEnvP _ => False
  | _ => True
  end.
Definition entry (S : sim) (q : qent) (e : evt) : Prop :=
  evalue e <> None /\ if urgent (erole e) then qprio q = URGENT /\ qtime q = now S else qprio q = NORMAL.
Definition calls (a : option nat) (S : sim) (ev : nat) (e : evt) : Prop :=
  (ecbs e = None /\ evalue e <> None) \/ ecbs e = Some [] \/
  (exists p r, ecbs e = Some [CResume p] /\ a <> Some p /\ proc_at p S = Some r /\ pcode r <> KEnd /\ ptarget r = ev) \/
  (exists p, ecbs e = Some [CInt p] /\ erole e = RInt p).

(** [a]: the process that is being resumed. *)
Record Que (a : option nat) (S : sim) : Prop := MkQue {
  q_heap : forall q, In q (heap S) -> qid q < eid S /\ (now S <= qtime q)%Z /\ exists e, event_at (qev q) S = Some e /\ entry S q e;
  q_cbs : forall ev e, event_at ev S = Some e -> calls a S ev e;
  q_wait : forall p r, proc_at p S = Some r -> a <> Some p -> pcode r <> KEnd ->
             exists e, event_at (ptarget r) S = Some e /\ ecbs e = Some [CResume p] /\ aims S p (pcode r) (ptarget r) e;
  q_who : forall p r, proc_at p S = Some r -> who S p (pcode r);
  q_acts : forall n ev, dget (acts S) n = Some ev -> role_at ev RAct S;
  q_inj : forall n m ev, dget (acts S) n = Some ev -> dget (acts S) m = Some ev -> n = m;
  q_pact : role_at (pact S) RAct S;
  q_apart : forall n, dget (acts S) n <> Some (pact S) }.

Lemma Que_same a S S' : Que a S -> now S' = now S -> eid S' = eid S -> heap S' = heap S -> evs S' = evs S -> prs S' = prs S ->
  pact S' = pact S -> acts S' = acts S -> extras S' = extras S -> Que a S'.
Proof. intros H. destruct S, S'. simpl. intros -> -> -> -> -> -> -> ->. destruct H. constructor; assumption. Qed.

Lemma role_added ev r e S : role_at ev r S -> role_at ev r (added e S).
Proof. intros (x & H & R). exists x. split; [apply at_added_old; exact H|exact R]. Qed.
Lemma Que_added a S e : Que a S -> (ecbs e = Some [] \/ exists p, ecbs e = Some [CInt p] /\ erole e = RInt p) -> Que a (added e S).
Proof.
  intros H He. constructor.
  - intros q Hq. destruct (q_heap _ _ H q Hq) as (A & B & x & Hx & E). repeat split; auto. exists x. split; [apply at_added_old; exact Hx|exact E].
  - intros ev x Hx. rewrite at_added in Hx. destruct (Nat.eqb ev (List.length (evs S))).
    + injection Hx as <-. unfold calls. destruct He as [He|He]; auto.
    + exact (q_cbs _ _ H ev x Hx).
  - intros p r Hp Ha Hc. destruct (q_wait _ _ H p r Hp Ha Hc) as (x & Hx & E & A). exists x. split; [apply at_added_old; exact Hx|]. split; [exact E|]. destruct (pcode r); exact A.
  - intros p r Hp. pose proof (q_who _ _ H p r Hp) as W. destruct (pcode r); exact W.
  - intros n ev Hn. apply role_added. exact (q_acts _ _ H n ev Hn).
  - exact (q_inj _ _ H).
  - apply role_added. exact (q_pact _ _ H).
  - exact (q_apart _ _ H).
Qed.
Lemma Que_queued a S prio d ev e : Que a S -> event_at ev S = Some e -> evalue e <> None -> (0 <= d)%Z ->
  (if urgent (erole e) then prio = URGENT /\ d = 0%Z else prio = NORMAL) -> Que a (queued prio d ev S).
Proof.
  intros H He Hv Hd Hu. constructor.
  - intros q Hq. cbn [queued set_queue heap eid now] in *. apply in_app_or in Hq. destruct Hq as [Hq|[<-|[]]].
    + destruct (q_heap _ _ H q Hq) as (A & B & x & Hx & E). split; [lia|]. split; [exact B|]. exists x. split; [exact Hx|exact E].
    + cbn [qid qtime qev]. split; [lia|]. split; [lia|]. exists e. split; [exact He|]. split; [exact Hv|]. cbn [qprio qtime]. destruct (urgent (erole e)); [|exact Hu]. destruct Hu as [-> ->].
      split; [reflexivity|]. cbn [queued set_queue now]. lia.
  - exact (q_cbs _ _ H).
  - intros p r Hp Ha Hc. destruct (q_wait _ _ H p r Hp Ha Hc) as (x & Hx & E & A). exists x. split; [exact Hx|]. split; [exact E|].
    assert (Sub : forall q, In q (heap S) -> In q (heap (queued prio d ev S))) by (intros q Hq; apply in_or_app; left; exact Hq).
    destruct (pcode r); try exact A; cbn [aims] in *; (destruct A as (A & q & B & C); split; [exact A|]; exists q; auto).
  - exact (q_who _ _ H).
  - exact (q_acts _ _ H).
  - exact (q_inj _ _ H).
  - exact (q_pact _ _ H).
  - exact (q_apart _ _ H).
Qed.
Lemma role_changed ev r i x e S : event_at i S = Some x -> erole e = erole x -> role_at ev r S -> role_at ev r (changed i e S).
Proof.
  intros H R (y & Hy & Ry). unfold role_at. rewrite (at_changed _ _ _ _ _ H). destruct (Nat.eqb_spec ev i) as [->|N]; [|eauto]. exists e. split; [reflexivity|]. congruence.
Qed.
Lemma Que_changed a S ev e e' : Que a S -> event_at ev S = Some e -> erole e' = erole e -> ecbs e' = ecbs e -> (evalue e <> None -> evalue e' <> None) ->
  Que a (changed ev e' S).
Proof.
  intros H He Hr Hc Hv.
  assert (Old : forall i x, event_at i S = Some x -> exists x', event_at i (changed ev e' S) = Some x' /\ erole x' = erole x /\ ecbs x' = ecbs x /\ (evalue x <> None -> evalue x' <> None)).
  { intros i x Hx. rewrite (at_changed _ _ _ _ _ He). destruct (Nat.eqb_spec i ev) as [->|N]; [|exists x; auto].
    assert (x = e) by congruence. subst x. exists e'. auto. }
  constructor.
  - intros q Hq. destruct (q_heap _ _ H q Hq) as (A & B & x & Hx & E1 & E2). split; [exact A|]. split; [exact B|]. destruct (Old _ _ Hx) as (x' & Hx' & R & C & V).
    exists x'. split; [exact Hx'|]. split; [auto|]. rewrite R. exact E2.
  - intros i x Hx. rewrite (at_changed _ _ _ _ _ He) in Hx. destruct (Nat.eqb_spec i ev) as [->|N]; [|exact (q_cbs _ _ H i x Hx)].
    injection Hx as <-. destruct (q_cbs _ _ H ev e He) as [(C & V)|C]; unfold calls; rewrite Hc, Hr; [left; auto|right; exact C].
  - intros p r Hp Ha Hk. destruct (q_wait _ _ H p r Hp Ha Hk) as (x & Hx & E & A). destruct (Old _ _ Hx) as (x' & Hx' & R & C & V). exists x'. split; [exact Hx'|]. split; [congruence|].
    unfold aims in *. rewrite R. exact A.
  - exact (q_who _ _ H).
  - intros n i Hn. apply (role_changed _ _ _ e); auto. exact (q_acts _ _ H n i Hn).
  - exact (q_inj _ _ H).
  - apply (role_changed _ _ _ e); auto. exact (q_pact _ _ H).
  - exact (q_apart _ _ H).
Qed.

Lemma Que_timed a d S : Que a S -> (0 <= d)%Z -> Que a (timed d S).
Proof.
  intros H Hd. eapply Que_queued; [apply Que_added; [exact H|left; reflexivity]|rewrite at_added, Nat.eqb_refl; reflexivity|discriminate|exact Hd|reflexivity].
Qed.
Lemma Que_struck a p S : Que a S -> Que a (struck p S).
Proof.
  intros H. eapply Que_queued; [apply Que_added; [exact H|right; exists p; split; reflexivity]|rewrite at_added, Nat.eqb_refl; reflexivity|discriminate|lia|split; reflexivity].
Qed.
Lemma Que_fired a ev e S : Que a S -> event_at ev S = Some e -> urgent (erole e) = false -> Que a (fired ev e S).
Proof.
  intros H He Hu. eapply Que_queued with (e := valued (Good XUnit) e).
  - apply (Que_changed _ _ _ e); auto. discriminate.
  - rewrite (at_changed _ _ _ _ _ He), Nat.eqb_refl. reflexivity.
  - discriminate.
  - lia.
  - cbn [valued erole]. rewrite Hu. reflexivity.
Qed.

Lemma Que_pact a ev S : Que a S -> (forall p r, proc_at p S = Some r -> a <> Some p -> pcode r <> KProcAct) ->
  role_at ev RAct S -> (forall n, dget (acts S) n <> Some ev) -> Que a (set_pact ev S).
Proof.
  intros H Hw He Hn. constructor; try apply H; auto.
  intros p r Hp Ha Hk. destruct (q_wait _ _ H p r Hp Ha Hk) as (x & Hx & E & A). exists x. split; [exact Hx|]. split; [exact E|].
  pose proof (Hw p r Hp Ha) as W. destruct (pcode r); try exact A. elim W. reflexivity.
Qed.
Lemma Que_acts a n ev S : Que a S -> (forall p r, proc_at p S = Some r -> a <> Some p -> pcode r <> KExtraAct n) ->
  role_at ev RAct S -> (forall n, dget (acts S) n <> Some ev) -> pact S <> ev -> Que a (set_acts (dset (acts S) n ev) S).
Proof.
  intros H Hw He Hn Hp. constructor; try apply H.
  - intros p' r Hr Ha Hk. destruct (q_wait _ _ H p' r Hr Ha Hk) as (x & Hx' & E & A). exists x. split; [exact Hx'|]. split; [exact E|].
    pose proof (Hw p' r Hr Ha) as W. destruct (pcode r); try exact A. cbn [aims set_acts acts] in *.
    rewrite dget_dset_neq; [exact A|]. intros ->. elim W. reflexivity.
  - intros m i Hm. cbn [set_acts acts] in Hm. destruct (String.eqb_spec m n) as [->|N].
    + rewrite dget_dset_eq in Hm. injection Hm as <-. exact He.
    + rewrite dget_dset_neq in Hm by congruence. exact (q_acts _ _ H m i Hm).
  - intros m m' i Hm Hm'. cbn [set_acts acts] in *. destruct (String.eqb_spec m n) as [->|N], (String.eqb_spec m' n) as [->|N']; auto.
    + rewrite dget_dset_eq in Hm. injection Hm as <-. rewrite dget_dset_neq in Hm' by congruence. elim (Hn m' Hm').
    + rewrite dget_dset_eq in Hm'. injection Hm' as <-. rewrite dget_dset_neq in Hm by congruence. elim (Hn m Hm).
    + rewrite dget_dset_neq in Hm, Hm' by congruence. exact (q_inj _ _ H m m' i Hm Hm').
  - intros m Hm. cbn [set_acts acts pact] in *. destruct (String.eqb_spec m n) as [->|N].
    + rewrite dget_dset_eq in Hm. injection Hm as E. elim Hp. congruence.
    + rewrite dget_dset_neq in Hm by congruence. exact (q_apart _ _ H m Hm).
Qed.

(** Starting a process. *)
Lemma at_spawned ev c S : event_at ev (spawned c S) =
  if Nat.eqb ev (Datatypes.S (List.length (evs S))) then Some (MkEvt (RInit (List.length (prs S))) (Some (Good XUnit)) false (Some [CResume (List.length (prs S))]))
  else if Nat.eqb ev (List.length (evs S)) then Some (MkEvt (ROwn (List.length (prs S))) None false (Some [])) else event_at ev S.
Proof.
  set (e1 := MkEvt (ROwn _) _ _ _). set (e2 := MkEvt (RInit _) _ _ _).
  change (event_at ev (spawned c S)) with (event_at ev (added e2 (added e1 S))). rewrite !at_added.
  replace (List.length (evs (added e1 S))) with (Datatypes.S (List.length (evs S))); [reflexivity|]. cbn. rewrite app_length. cbn. lia.
Qed.
Lemma at_spawned_old ev x c S : event_at ev S = Some x -> event_at ev (spawned c S) = Some x.
Proof.
  intros H. pose proof (at_old _ _ _ H). rewrite at_spawned. destruct (Nat.eqb_spec ev (Datatypes.S (List.length (evs S)))); [lia|]. destruct (Nat.eqb_spec ev (List.length (evs S))); [lia|exact H].
Qed.
Lemma pat_spawned p c S : proc_at p (spawned c S) =
  if Nat.eqb p (List.length (prs S)) then Some (MkPrc (kind_of c) (List.length (evs S)) (Datatypes.S (List.length (evs S))) c) else proc_at p S.
Proof.
  destruct (Nat.eqb_spec p (List.length (prs S))) as [->|N]; [apply spawned_new|].
  unfold proc_at, spawned. cbn [prs set_prs set_queue]. destruct (Nat.lt_ge_cases p (List.length (prs S))) as [L|L]; [apply nth_error_app1; exact L|].
  rewrite (proj2 (nth_error_None _ _)) by (rewrite app_length; cbn; lia). symmetry. apply nth_error_None. exact L.
Qed.
Lemma pat_spawned_old p r c S : proc_at p S = Some r -> proc_at p (spawned c S) = Some r.
Proof. intros H. rewrite pat_spawned. apply pat_old in H as L. destruct (Nat.eqb_spec p (List.length (prs S))); [lia|exact H]. Qed.
Lemma Que_spawned a c S : Que a S -> (forall p, a = Some p -> p < List.length (prs S)) -> who S (List.length (prs S)) c -> c <> KEnd ->
  (match c with KProc0 | KExtra0 _ | KLocal0 _ _ _ => True | _ => False end) -> Que a (spawned c S).
Proof.
  intros H Ha Hw Hc Hk. set (p0 := List.length (prs S)) in *. set (n0 := List.length (evs S)).
  assert (Sub : forall q, In q (heap S) -> In q (heap (spawned c S))) by (intros q Hq; apply in_or_app; left; exact Hq).
  assert (Ro : forall ev r, role_at ev r S -> role_at ev r (spawned c S)) by (intros ev r (x & Hx & R); exists x; split; [apply at_spawned_old; exact Hx|exact R]).
  constructor.
  - intros q Hq. cbn [spawned set_queue heap eid now set_prs set_evs] in Hq |- *. apply in_app_or in Hq. destruct Hq as [Hq|[<-|[]]].
    + destruct (q_heap _ _ H q Hq) as (A & B & x & Hx & E). split; [lia|]. split; [exact B|]. exists x. split; [apply at_spawned_old; exact Hx|exact E].
    + cbn [qid qtime qev]. split; [lia|]. split; [lia|]. eexists. rewrite at_spawned, Nat.eqb_refl. split; [reflexivity|]. split; [discriminate|].
      cbn [urgent erole qprio qtime]. split; [reflexivity|]. cbn. lia.
  - intros ev e He. rewrite at_spawned in He. destruct (Nat.eqb_spec ev (Datatypes.S n0)) as [->|N].
    + fold n0 in He. rewrite Nat.eqb_refl in He. injection He as <-. right; right; left. exists p0. eexists. split; [reflexivity|]. split; [intros E; specialize (Ha _ E); lia|].
      split; [rewrite pat_spawned; fold p0; rewrite Nat.eqb_refl; reflexivity|]. split; [exact Hc|reflexivity].
    + fold n0 in He. rewrite (proj2 (Nat.eqb_neq _ _) N) in He. destruct (Nat.eqb_spec ev n0) as [->|N'].
      * injection He as <-. right; left. reflexivity.
      * destruct (q_cbs _ _ H ev e He) as [C|[C|[(p & r & C & D & E & F & G)|C]]]; unfold calls; auto. right; right; left. exists p, r. repeat split; auto. apply pat_spawned_old. exact E.
  - intros p r Hp Hap Hkr. rewrite pat_spawned in Hp. fold p0 in Hp. destruct (Nat.eqb_spec p p0) as [->|N].
    + injection Hp as <-. cbn [ptarget pcode]. eexists. fold n0. rewrite at_spawned. fold n0. rewrite Nat.eqb_refl. split; [reflexivity|]. fold p0. split; [reflexivity|].
      assert (I0 : exists q, In q (heap (spawned c S)) /\ qev q = Datatypes.S n0) by (eexists; split; [apply in_or_app; right; left; reflexivity|reflexivity]).
      destruct c; try contradiction; cbn [aims]; (split; [reflexivity|exact I0]).
    + destruct (q_wait _ _ H p r Hp Hap Hkr) as (x & Hx & E & A). exists x. split; [apply at_spawned_old; exact Hx|]. split; [exact E|].
      destruct (pcode r); try exact A; cbn [aims] in *; (destruct A as (A & q & B & C); split; [exact A|]; exists q; auto).
  - intros p r Hp. rewrite pat_spawned in Hp. fold p0 in Hp. destruct (Nat.eqb_spec p p0) as [->|N].
    + injection Hp as <-. cbn [pcode]. destruct c; try contradiction; exact Hw.
    + pose proof (q_who _ _ H p r Hp) as W. destruct (pcode r); exact W.
  - intros n ev Hn. apply Ro. exact (q_acts _ _ H n ev Hn).
  - exact (q_inj _ _ H).
  - apply Ro. exact (q_pact _ _ H).
  - exact (q_apart _ _ H).
Qed.

(** ** A process waits, ends, is interrupted *)

(** The process that has been resumed waits for [ev] from now on. *)
Definition parked (p : nat) (r : prc) (c : code) (ev : nat) (e : evt) (S : sim) : sim :=
  set_prs (upd (prs S) p (MkPrc (pkind r) (pown r) ev c)) (changed ev (MkEvt (erole e) (evalue e) (edefused e) (Some [CResume p])) S).
Lemma park_eq p r c ev e S : proc_at p S = Some r -> event_at ev S = Some e -> ecbs e = Some [] ->
  hand_over p ev (set_prc p (fun r => MkPrc (pkind r) (pown r) (ptarget r) c) S) = parked p r c ev e S.
Proof.
  intros Hp He Hc. rewrite (set_prc_at _ _ _ _ Hp). set (r1 := MkPrc _ _ _ c). set (S1 := set_prs _ S). assert (He1 : event_at ev S1 = Some e) by exact He.
  unfold hand_over. rewrite He1, Hc. unfold exec_, add_cb, set_event, upd_. cbn [fst]. change (nth_error (evs S1) ev) with (event_at ev S1). rewrite He1, Hc.
  rewrite (set_prc_at p r1). 2:{ unfold proc_at, S1. cbn. apply (upd_same _ _ _ r). exact Hp. }
  unfold parked, changed. cbn. rewrite upd_upd. reflexivity.
Qed.
Lemma Que_parked p r c ev e S : Que (Some p) S -> proc_at p S = Some r -> event_at ev S = Some e -> ecbs e = Some [] -> c <> KEnd -> who S p c -> aims S p c ev e ->
  Que None (parked p r c ev e S).
Proof.
  intros H Hp He Hc Hk Hw Ha. set (S' := parked p r c ev e S). set (e' := MkEvt (erole e) (evalue e) (edefused e) (Some [CResume p])).
  assert (Ev : forall i, event_at i S' = if Nat.eqb i ev then Some e' else event_at i S) by (intros i; exact (at_changed i ev e' e S He)).
  assert (Pr : forall i, proc_at i S' = if Nat.eqb i p then Some (MkPrc (pkind r) (pown r) ev c) else proc_at i S) by (intros i; exact (pat_upd i p _ r S Hp)).
  assert (Ro : forall i x, role_at i x S -> role_at i x S') by (intros i x R; exact (role_changed i x ev e e' S He eq_refl R)).
  constructor.
  - intros q Hq. destruct (q_heap _ _ H q Hq) as (A & B & x & Hx & E1 & E2). split; [exact A|]. split; [exact B|]. rewrite Ev.
    destruct (Nat.eqb_spec (qev q) ev) as [E0|N]; [|exists x; split; [exact Hx|split; assumption]]. rewrite E0 in Hx. assert (x = e) by congruence. subst x. exists e'. split; [reflexivity|split; assumption].
  - intros i x Hx. rewrite Ev in Hx. destruct (Nat.eqb_spec i ev) as [->|N].
    + injection Hx as <-. right; right; left. exists p. eexists. split; [reflexivity|]. split; [discriminate|]. rewrite Pr, Nat.eqb_refl. split; [reflexivity|]. auto.
    + destruct (q_cbs _ _ H i x Hx) as [C|[C|[(p' & r' & C & D & E & F & G)|C]]]; unfold calls; auto. right; right; left. exists p', r'. split; [exact C|]. split; [discriminate|].
      rewrite Pr. destruct (Nat.eqb_spec p' p) as [->|N']; [elim D; reflexivity|]. auto.
  - intros i x Hx _ Hkx. rewrite Pr in Hx. destruct (Nat.eqb_spec i p) as [->|N].
    + injection Hx as <-. cbn [ptarget pcode]. exists e'. rewrite Ev, Nat.eqb_refl. split; [reflexivity|]. split; [reflexivity|]. destruct c; exact Ha.
    + destruct (q_wait _ _ H i x Hx) as (y & Hy & E & A); [congruence|exact Hkx|]. exists y. rewrite Ev. destruct (Nat.eqb_spec (ptarget x) ev) as [E'|N'].
      * exfalso. rewrite E' in Hy. assert (y = e) by congruence. subst y. congruence.
      * split; [exact Hy|]. split; [exact E|]. destruct (pcode x); exact A.
  - intros i x Hx. rewrite Pr in Hx. destruct (Nat.eqb_spec i p) as [->|N].
    + injection Hx as <-. cbn [pcode]. destruct c; exact Hw.
    + pose proof (q_who _ _ H i x Hx) as W. destruct (pcode x); exact W.
  - intros n i Hn. apply Ro. exact (q_acts _ _ H n i Hn).
  - exact (q_inj _ _ H).
  - apply Ro. exact (q_pact _ _ H).
  - exact (q_apart _ _ H).
Qed.

(** It goes on at once. *)
Definition moved (p : nat) (r : prc) (c : code) (S : sim) : sim := set_prs (upd (prs S) p (MkPrc (pkind r) (pown r) (ptarget r) c)) S.
Definition defused (ev : nat) (e : evt) (o : outcome) (S : sim) : sim :=
  match o with Bad _ => changed ev (MkEvt (erole e) (evalue e) true (ecbs e)) S | Good _ => S end.
Lemma defuse_eq ev e o S : event_at ev S = Some e -> exec_ (match o with Bad _ => defuse ev | _ => ret tt end) S = defused ev e o S.
Proof. intros H. destruct o; [reflexivity|]. unfold exec_, defuse, set_event, upd_. cbn [fst]. change (nth_error (evs S) ev) with (event_at ev S). rewrite H. reflexivity. Qed.
Lemma Que_defused a ev e o S : Que a S -> event_at ev S = Some e -> Que a (defused ev e o S).
Proof. intros H He. destruct o; [exact H|]. apply (Que_changed _ _ _ e); auto. Qed.
Lemma move_eq p r c ev e o S : proc_at p S = Some r -> event_at ev S = Some e -> ecbs e = None -> evalue e = Some o ->
  hand_over p ev (set_prc p (fun r => MkPrc (pkind r) (pown r) (ptarget r) c) S) = set_todo (WRun p o :: todo S) (defused ev e o (moved p r c S)).
Proof.
  intros Hp He Hc Hv. rewrite (set_prc_at _ _ _ _ Hp). fold (moved p r c S). unfold hand_over. change (event_at ev (moved p r c S)) with (event_at ev S). rewrite He, Hc, Hv.
  rewrite (defuse_eq ev e) by exact He. reflexivity.
Qed.
Lemma Que_moved p r c S : Que (Some p) S -> proc_at p S = Some r -> who S p c -> Que (Some p) (moved p r c S).
Proof.
  intros H Hp Hw.
  assert (Pr : forall i, proc_at i (moved p r c S) = if Nat.eqb i p then Some (MkPrc (pkind r) (pown r) (ptarget r) c) else proc_at i S) by (intros i; exact (pat_upd i p _ r S Hp)).
  constructor; try apply H.
  - intros i x Hx. destruct (q_cbs _ _ H i x Hx) as [C|[C|[(p' & r' & C & D & E & F & G)|C]]]; unfold calls; auto. right; right; left. exists p', r'. split; [exact C|]. split; [exact D|].
    rewrite Pr. destruct (Nat.eqb_spec p' p) as [->|N']; [elim D; reflexivity|]. auto.
  - intros i x Hx Ha Hkx. rewrite Pr in Hx. destruct (Nat.eqb_spec i p) as [->|N]; [elim Ha; reflexivity|]. exact (q_wait _ _ H i x Hx Ha Hkx).
  - intros i x Hx. rewrite Pr in Hx. destruct (Nat.eqb_spec i p) as [->|N]; [injection Hx as <-; exact Hw|]. exact (q_who _ _ H i x Hx).
Qed.

(** It ends. *)
Definition finished (p : nat) (r : prc) (o : outcome) (e : evt) (S : sim) : sim := queued NORMAL 0 (pown r) (changed (pown r) (valued o e) (moved p r KEnd S)).
Lemma end_eq p r o e S : proc_at p S = Some r -> event_at (pown r) S = Some e -> end_process p o S = finished p r o e S.
Proof.
  intros Hp He. unfold end_process. assert (Ho : own_event p S = pown r) by (unfold own_event; unfold proc_at in Hp; rewrite Hp; reflexivity). rewrite Ho, (set_prc_at _ _ _ _ Hp).
  unfold exec_, bind, set_event, schedule, upd_. change (nth_error (evs (set_prs _ S)) (pown r)) with (event_at (pown r) S). rewrite He. reflexivity.
Qed.
Lemma Que_finished p r o e S : Que (Some p) S -> proc_at p S = Some r -> event_at (pown r) S = Some e -> urgent (erole e) = false -> Que None (finished p r o e S).
Proof.
  intros H Hp He Hu.
  assert (H1 : Que (Some p) (moved p r KEnd S)) by (apply Que_moved; auto; exact I).
  assert (H2 : Que None (moved p r KEnd S)).
  { constructor; try apply H1.
    - intros i x Hx. destruct (q_cbs _ _ H1 i x Hx) as [C|[C|[(p' & r' & C & D & E)|C]]]; unfold calls; auto. right; right; left. exists p', r'. split; [exact C|]. split; [discriminate|exact E].
    - intros i x Hx _ Hk. apply (q_wait _ _ H1 i x Hx); [|exact Hk]. intros [= <-]. unfold moved in Hx. rewrite (pat_upd p p _ r S Hp), Nat.eqb_refl in Hx. injection Hx as <-. apply Hk. reflexivity. }
  eapply Que_queued with (e := valued o e).
  - apply (Que_changed _ _ _ e); auto. discriminate.
  - rewrite (at_changed _ _ _ e (moved p r KEnd S) He), Nat.eqb_refl. reflexivity.
  - discriminate.
  - lia.
  - cbn [valued erole]. rewrite Hu. reflexivity.
Qed.

(** It is interrupted. *)
Definition torn (ev : nat) (e : evt) (S : sim) : sim := changed ev (MkEvt (erole e) (evalue e) (edefused e) (Some [])) S.
Lemma Que_torn p r e S : Que None S -> proc_at p S = Some r -> event_at (ptarget r) S = Some e -> ecbs e = Some [CResume p] -> Que (Some p) (torn (ptarget r) e S).
Proof.
  intros H Hp He Hc. set (e' := MkEvt (erole e) (evalue e) (edefused e) (Some [])).
  assert (Ev : forall i, event_at i (torn (ptarget r) e S) = if Nat.eqb i (ptarget r) then Some e' else event_at i S) by (intros i; exact (at_changed i _ e' e S He)).
  assert (Ro : forall i x, role_at i x S -> role_at i x (torn (ptarget r) e S)) by (intros i x R; exact (role_changed i x _ e e' S He eq_refl R)).
  constructor.
  - intros q Hq. destruct (q_heap _ _ H q Hq) as (A & B & x & Hx & E1 & E2). split; [exact A|]. split; [exact B|]. rewrite Ev.
    destruct (Nat.eqb_spec (qev q) (ptarget r)) as [E|N]; [|exists x; split; [exact Hx|split; assumption]]. rewrite E in Hx. assert (x = e) by congruence. subst x. exists e'. split; [reflexivity|split; assumption].
  - intros i x Hx. rewrite Ev in Hx. destruct (Nat.eqb_spec i (ptarget r)) as [->|N].
    + injection Hx as <-. right; left. reflexivity.
    + destruct (q_cbs _ _ H i x Hx) as [C|[C|[(p' & r' & C & D & E & F & G)|C]]]; unfold calls; auto. right; right; left. exists p', r'. split; [exact C|]. split; [|auto].
      intros [= ->]. assert (r' = r) by congruence. subst r'. congruence.
  - intros i x Hx Ha Hkx. destruct (q_wait _ _ H i x Hx) as (y & Hy & E & A); [discriminate|exact Hkx|]. exists y. rewrite Ev. destruct (Nat.eqb_spec (ptarget x) (ptarget r)) as [E'|N'].
    + exfalso. rewrite E' in Hy. assert (y = e) by congruence. subst y. rewrite Hc in E. injection E as ->. apply Ha. reflexivity.
    + split; [exact Hy|]. split; [exact E|]. destruct (pcode x); exact A.
  - exact (q_who _ _ H).
  - intros n i Hn. apply Ro. exact (q_acts _ _ H n i Hn).
  - exact (q_inj _ _ H).
  - apply Ro. exact (q_pact _ _ H).
  - exact (q_apart _ _ H).
Qed.

(** ** The next event *)

(** [x] comes before [y] in the queue. *)
Definition before (x y : qent) : Prop :=
  (qtime x < qtime y)%Z \/ (qtime x = qtime y /\ (qprio x < qprio y \/ (qprio x = qprio y /\ qid x <= qid y))).
Lemma earlier_before x y : earlier x y = true <-> before x y.
Proof.
  unfold earlier, before. destruct (Z.ltb_spec (qtime x) (qtime y)); [split; auto|]. destruct (Z.ltb_spec (qtime y) (qtime x)); [split; [discriminate|lia]|].
  destruct (Nat.ltb_spec (qprio x) (qprio y)); [split; [lia|auto]|]. destruct (Nat.ltb_spec (qprio y) (qprio x)); [split; [discriminate|lia]|]. rewrite Nat.leb_le. split; lia.
Qed.
Lemma before_total x y : earlier x y = false -> before y x.
Proof.
  intros H. destruct (Z.lt_trichotomy (qtime x) (qtime y)) as [L|[L|L]]; [|
    destruct (Nat.lt_trichotomy (qprio x) (qprio y)) as [M|[M|M]]; [|destruct (Nat.le_gt_cases (qid x) (qid y)) as [K|K]|]|]; unfold before; try lia;
    (assert (B : before x y) by (unfold before; lia); apply earlier_before in B; congruence).
Qed.
Lemma before_trans x y z : before x y -> before y z -> before x z.
Proof. unfold before. lia. Qed.
Lemma pop_min_split l q h : pop_min l = Some (q, h) -> exists l1 l2, l = l1 ++ q :: l2 /\ h = l1 ++ l2 /\ forall x, In x l -> before q x.
Proof.
  revert q h. induction l as [|y l IH]; cbn [pop_min]; [discriminate|]. intros q h. destruct (pop_min l) as [[m r]|] eqn:E.
  - destruct (IH _ _ eq_refl) as (l1 & l2 & -> & -> & B). destruct (earlier y m) eqn:Ey; intros [= <- <-].
    + exists [], (l1 ++ m :: l2). split; [reflexivity|]. split; [reflexivity|]. apply earlier_before in Ey. intros x [<-|Hx]; [unfold before; lia|]. exact (before_trans _ _ _ Ey (B x Hx)).
    + exists (y :: l1), l2. split; [reflexivity|]. split; [reflexivity|]. apply before_total in Ey. intros x [<-|Hx]; [exact Ey|exact (B x Hx)].
  - intros [= <- <-]. destruct l; [|cbn [pop_min] in E; destruct (pop_min l) as [[? ?]|]; [destruct (earlier _ _); discriminate|discriminate]].
    exists [], []. repeat split; auto. intros x [<-|[]]. unfold before. lia.
Qed.

Definition popped (q : qent) (h : list qent) (e : evt) (S : sim) : sim :=
  set_todo (map (WCb (qev q)) (match ecbs e with Some l => l | None => [] end) ++ [WEnd (qev q)])
    (changed (qev q) (MkEvt (erole e) (evalue e) (edefused e) None) (set_now (qtime q) (set_queue (eid S) h S))).
Definition resumed (e : evt) : option nat := match ecbs e with Some (CResume p :: _) => Some p | _ => None end.
Lemma Que_popped S q h e : Que None S -> pop_min (heap S) = Some (q, h) -> event_at (qev q) S = Some e -> Que (resumed e) (popped q h e S).
Proof.
  intros H Hpop He. destruct (pop_min_split _ _ _ Hpop) as (l1 & l2 & El & Eh & Min). set (S' := popped q h e S). set (e' := MkEvt (erole e) (evalue e) (edefused e) None).
  assert (Sub : forall x, In x h -> In x (heap S)) by (intros x Hx; rewrite El; rewrite Eh in Hx; apply in_app_or in Hx; apply in_or_app; cbn; tauto).
  assert (Hq : In q (heap S)) by (rewrite El; apply in_or_app; cbn; auto).
  destruct (q_heap _ _ H q Hq) as (Iq & Tq & eq & Heq & Vq & Uq). assert (eq = e) by congruence. subst eq.
  assert (Ev : forall i, event_at i S' = if Nat.eqb i (qev q) then Some e' else event_at i S) by (intros i; exact (at_changed i (qev q) e' e _ He)).
  assert (Ro : forall i x, role_at i x S -> role_at i x S').
  { intros i x (y & Hy & R). unfold role_at. rewrite Ev. destruct (Nat.eqb_spec i (qev q)) as [->|N]; [|eauto]. exists e'. split; [reflexivity|]. cbn. congruence. }
  assert (Pr : forall p r, proc_at p S = Some r -> resumed e <> Some p -> pcode r <> KEnd -> ptarget r <> qev q).
  { intros p r Hp Ha Hk E. destruct (q_wait _ _ H p r Hp) as (x & Hx & C & _); [discriminate|exact Hk|]. rewrite E in Hx. assert (x = e) by congruence. subst x. apply Ha. unfold resumed. rewrite C. reflexivity. }
  constructor.
  - intros x Hx. change (heap S') with h in Hx. change (eid S') with (eid S). change (now S') with (qtime q). destruct (q_heap _ _ H x (Sub x Hx)) as (A & B & y & Hy & V & U).
    split; [exact A|]. pose proof (Min x (Sub x Hx)) as Mx. split; [unfold before in Mx; lia|]. rewrite Ev.
    assert (U' : if urgent (erole y) then qprio x = URGENT /\ qtime x = qtime q else qprio x = NORMAL).
    { destruct (urgent (erole y)); [|exact U]. destruct U as [U1 U2]. split; [exact U1|]. unfold before in Mx. lia. }
    destruct (Nat.eqb_spec (qev x) (qev q)) as [E|N]; [|exists y; split; [exact Hy|split; [exact V|exact U']]].
    rewrite E in Hy. assert (y = e) by congruence. subst y. exists e'. split; [reflexivity|split; [exact V|exact U']].
  - intros i x Hx. rewrite Ev in Hx. destruct (Nat.eqb_spec i (qev q)) as [->|N]; [injection Hx as <-; left; split; [reflexivity|exact Vq]|].
    destruct (q_cbs _ _ H i x Hx) as [C|[C|[(p & r & C & D & E & F & G)|C]]]; unfold calls; auto. right; right; left. exists p, r. repeat split; auto.
    unfold resumed. intros K. destruct (ecbs e) as [[|[p'|p'|p'] l]|] eqn:Ec; try discriminate. injection K as ->.
    destruct (q_cbs _ _ H _ _ He) as [(C' & _)|[C'|[(p' & r' & C' & D' & E' & F' & G')|(p' & C' & _)]]]; congruence.
  - intros p r Hp Ha Hk. pose proof (Pr p r Hp Ha Hk) as N. destruct (q_wait _ _ H p r Hp) as (x & Hx & C & A); [discriminate|exact Hk|]. exists x. rewrite Ev.
    rewrite (proj2 (Nat.eqb_neq _ _) N). split; [exact Hx|]. split; [exact C|].
    assert (Keep : (exists q', In q' (heap S) /\ qev q' = ptarget r) -> exists q', In q' h /\ qev q' = ptarget r).
    { intros (q' & I' & E'). exists q'. split; [|exact E']. rewrite El in I'. rewrite Eh. apply in_app_or in I'. apply in_or_app. destruct I' as [I'|[I'|I']]; [auto|subst q'; congruence|auto]. }
    destruct (pcode r); try exact A; cbn [aims] in *; (destruct A as (A & B); split; [exact A|exact (Keep B)]).
  - exact (q_who _ _ H).
  - intros n i Hn. apply Ro. exact (q_acts _ _ H n i Hn).
  - exact (q_inj _ _ H).
  - apply Ro. exact (q_pact _ _ H).
  - exact (q_apart _ _ H).
Qed.

(** An event that is not urgent is taken only when no urgent one is left. *)
Definition calm (S : sim) : Prop := forall q, In q (heap S) -> qprio q <> URGENT.
Lemma popped_calm S q h e : Que None S -> pop_min (heap S) = Some (q, h) -> event_at (qev q) S = Some e -> urgent (erole e) = false -> calm (popped q h e S).
Proof.
  intros H Hpop He Hu x Hx. destruct (pop_min_split _ _ _ Hpop) as (l1 & l2 & El & Eh & Min). change (heap (popped q h e S)) with h in Hx.
  assert (Hq : In q (heap S)) by (rewrite El; apply in_or_app; cbn; auto).
  assert (Hx' : In x (heap S)) by (rewrite El; rewrite Eh in Hx; apply in_app_or in Hx; apply in_or_app; cbn; tauto).
  destruct (q_heap _ _ H q Hq) as (Iq & Tq & eq & Heq & Vq & Uq). assert (eq = e) by congruence. subst eq. rewrite Hu in Uq.
  destruct (q_heap _ _ H x Hx') as (A & B & y & Hy & V & U). pose proof (Min x Hx') as Mx. destruct (urgent (erole y)); [|rewrite U; discriminate].
  destruct U as [U1 U2]. exfalso. unfold before, URGENT, NORMAL in *. lia.
Qed.

(** ** The beginning *)

Lemma Que_extras a n p S : Que a S -> dget (extras S) n = None -> Que a (set_extras (dset (extras S) n p) S).
Proof.
  intros H Hn. constructor; try apply H. intros p' r Hp. pose proof (q_who _ _ H p' r Hp) as W. destruct (pcode r); cbn [who set_extras extras] in *; auto;
    (rewrite dget_dset_neq; [exact W|congruence]).
Qed.
Definition dawn (c : code) : Prop := match c with KProc0 | KExtra0 _ => True | _ => False end.
Definition act0 : evt := MkEvt RAct None false (Some []).
Definition extra_made (n : string) (S : sim) : sim :=
  let S1 := spawned (KExtra0 n) (set_extras (dset (extras S) n (List.length (prs S))) S) in set_acts (dset (acts S1) n (List.length (evs S1))) (added act0 S1).
Lemma make_extras_eq n names S : make_extras (n :: names) S = make_extras names (if String.eqb n PROCEDURAL then S else extra_made n S).
Proof. cbn [make_extras]. destruct (String.eqb n PROCEDURAL); [reflexivity|]. unfold bind. rewrite spawn_eq. reflexivity. Qed.
Lemma make_extras_Que names : forall S, Que None S -> NoDup names -> (forall n, In n names -> dget (extras S) n = None) -> pact S < List.length (evs S) -> 
  (forall p r, proc_at p S = Some r -> dawn (pcode r)) ->
  let S' := fst (make_extras names S) in Que None S' /\ snd (make_extras names S) = inl tt /\ (forall p r, proc_at p S' = Some r -> dawn (pcode r)).
Proof.
  induction names as [|n names IH]; intros S H Nd Fr Hp Hd; [cbn; auto|]. rewrite make_extras_eq. inversion Nd as [|? ? Nn Nd']; subst.
  destruct (String.eqb n PROCEDURAL).
  - apply IH; auto. intros m Hm. apply Fr. right. exact Hm.
  - set (p := List.length (prs S)). unfold extra_made. fold p.
    set (S1 := spawned (KExtra0 n) (set_extras (dset (extras S) n p) S)).
    assert (H1 : Que None S1).
    { apply Que_spawned; try discriminate; [|cbn; apply dget_dset_eq|exact I]. apply Que_extras; [exact H|]. apply Fr. left. reflexivity. }
    assert (Hd1 : forall p r, proc_at p S1 = Some r -> dawn (pcode r)).
    { intros q r Hr. unfold S1 in Hr. rewrite pat_spawned in Hr. destruct (Nat.eqb _ _); [injection Hr as <-; exact I|exact (Hd q r Hr)]. }
    set (e := act0).
    assert (L1 : List.length (evs S) < List.length (evs S1)) by (unfold S1, spawned; cbn; rewrite !app_length; cbn; lia).
    assert (Fresh : forall m, dget (acts S1) m <> Some (List.length (evs S1))).
    { intros m Hm. destruct (q_acts _ _ H1 m _ Hm) as (x & Hx & _). apply at_old in Hx. lia. }
    set (ev := List.length (evs S1)). cbv zeta. apply IH.
    + apply (Que_acts None n ev (added e S1)); [apply Que_added; [exact H1|left; reflexivity]| |exists e; split; [rewrite at_added; unfold ev; rewrite Nat.eqb_refl; reflexivity|reflexivity]|exact Fresh|].
      * intros q r Hr _ E. specialize (Hd1 q r Hr). rewrite E in Hd1. exact Hd1.
      * change (pact (added e S1)) with (pact S). unfold ev. lia.
    + exact Nd'.
    + intros m Hm. change (extras _) with (dset (extras S) n p). rewrite dget_dset_neq by (intros ->; contradiction). apply Fr. right. exact Hm.
    + change (pact S < List.length (evs S1 ++ [e])). rewrite app_length. lia.
    + exact Hd1.
Qed.
Definition sim_start (t : Z) (s : st) : sim := MkSim t 0 [] [act0] [] [] None s (Some []) [] [] 0 [] false 0 [].
Lemma init_eq t s S2 : make_extras (dkeys (snames s)) (spawned KProc0 (sim_start t s)) = (S2, inl tt) ->
  sim_init t s None = set_pact (List.length (evs S2)) (added act0 S2).
Proof. intros E. unfold sim_init, initialise, exec_. unfold bind. rewrite spawn_eq. change (MkSim t 0 _ _ _ _ _ _ _ _ _ _ _ _ _ _) with (sim_start t s). rewrite E. reflexivity. Qed.
Theorem init_Que t s : NoDup (dkeys (snames s)) ->
  let S := sim_init t s None in Que None S /\ (forall p r, proc_at p S = Some r -> dawn (pcode r)).
Proof.
  intros Nd. cbv zeta. set (S0 := sim_start t s).
  assert (H0 : Que None S0).
  { constructor; try discriminate.
    - intros q [].
    - intros [|[|ev]] e He; try discriminate. injection He as <-. right; left. reflexivity.
    - intros [|p] r Hr; discriminate.
    - intros [|p] r Hr; discriminate.
    - exists act0. split; reflexivity. }
  set (S1 := spawned KProc0 S0).
  assert (H1 : Que None S1) by (apply Que_spawned; [exact H0|discriminate|reflexivity|discriminate|exact I]).
  assert (Hd1 : forall p r, proc_at p S1 = Some r -> dawn (pcode r)) by (intros [|[|p]] r Hr; try discriminate; injection Hr as <-; exact I).
  destruct (make_extras_Que (dkeys (snames s)) S1 H1 Nd) as (H2 & E2 & Hd2); [reflexivity|cbn; lia|exact Hd1|].
  destruct (make_extras (dkeys (snames s)) S1) as [S2 x] eqn:Em. cbn [fst snd] in *. subst x. rewrite (init_eq _ _ _ Em). split; [|exact Hd2].
  apply Que_pact; [apply Que_added; [exact H2|left; reflexivity]| |exists act0; split; [rewrite at_added, Nat.eqb_refl; reflexivity|reflexivity]|].
  - intros q r Hr _ E. specialize (Hd2 q r Hr). rewrite E in Hd2. exact Hd2.
  - intros m Hm. destruct (q_acts _ _ H2 m _ Hm) as (x & Hx & _). apply at_old in Hx. lia.
Qed.
