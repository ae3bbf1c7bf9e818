(** Simulations without environment: when they stop by themselves, no rule matches.  The processes that a rule has called. *)
From Coq Require Import Lia Sorted.
From Verif Require Import Base BaseFacts Chunks DecMem Buffers BufferFacts Productions ProdSpec LearnFacts Sim SimSpec SimFacts CompileFacts RunFacts LiftFacts SafeSpec RequestFacts RoundFacts QuietGens QueueFacts SafeFacts SafeSteps SafeMain FailFacts SafeRuns BrokenFacts QuietFacts QuietSteps QuietRuns QuietLead.
Local Open Scope string_scope.
Local Open Scope list_scope.
Local Open Scope nat_scope.

(** ** The processes of buffers are called *)

(** The state [S1] while the processes of [l] are still to be called. *)
Record Lau (w : nat) (s1 : st) (S : sim) (l : list proc) (S1 : sim) : Prop := MkLau {
  u_mv : Mv 0 S S1;
  u_prs : prs S1 = prs S;
  u_acts : acts S1 = acts S;
  u_todo : todo S1 = [WEnd w];
  u_ss : ss S1 = s1;
  u_que : Que (Some 0) S1;
  u_old : forall n ev e, dget (acts S) n = Some ev -> 0 < count n l -> event_at ev S = Some e -> event_at ev S1 = Some e;
  u_int : forall n, 0 < count n l -> dget (inter S1) n = dget (inter S) n;
  u_own : forall n p, dget (extras S) n = Some p -> ended p S1 = false;
  u_keep : forall n, dget (inter S1) n = None -> dget (inter S) n = None;
  u_ids : forall n id, dget (inter S1) n = Some id -> id < snext (ss S) }.
Definition called_ (S S1 : sim) (x : proc) : Prop :=
  exists id n m i c bs t, x = PReq id n m i c bs t /\ (m = MClear -> (roundtime t <= now S)%Z) /\ (dget (inter S1) n = None -> m = MClear) /\
    exists p r, dget (extras S) n = Some p /\ proc_at p S = Some r /\
      ((busy n (pcode r) /\ exists q, In q (heap S1) /\ strikes S1 q p) \/
       (pcode r = KExtraAct n /\ exists ev qa, dget (acts S) n = Some ev /\ In qa (heap S1) /\ qev qa = ev)).
Lemma called_keeps S S1 S2 x : Mv 0 S1 S2 -> (forall n, dget (inter S2) n = None -> dget (inter S1) n = None) -> called_ S S1 x -> called_ S S2 x.
Proof.
  intros M Hi (id & n & m & i & c & bs & t & A & B & C & p & r & D & E & F). exists id, n, m, i, c, bs, t. split; [exact A|]. split; [exact B|]. split; [auto|]. exists p, r. split; [exact D|]. split; [exact E|].
  destruct F as [(F & q & X & (e & Y & Z & C0))|(F & ev & qa & X & Y & Z)]; [left|right]; (split; [exact F|]).
  - exists q. split; [exact (Mv_in _ _ _ _ M X)|]. destruct (v_evs _ _ _ M _ _ Y) as (e' & Y1 & Y2 & Y3 & _). exists e'. split; [exact Y1|]. split; [congruence|]. rewrite <- Y3. exact C0.
  - exists ev, qa. split; [exact X|]. split; [exact (Mv_in _ _ _ _ M Y)|exact Z].
Qed.
Lemma launch_one w s1 S pr l S1 W : Inv S -> Que (Some 0) S -> Sem W (Some 0) S -> Fires (Some 0) S -> Gen None (Some 0) S ->
  (forall n, count n (pr :: l) <= 1) -> waits S pr -> (exists id n m i c bs t, pr = PReq id n m i c bs t /\ queues m = true /\ id < snext (ss S)) -> Lau w s1 S (pr :: l) S1 ->
  match launch 0 pr S1 with (S2, inl _) => Lau w s1 S l S2 /\ called_ S S2 pr /\ Mv 0 S1 S2 /\ (forall n, dget (inter S2) n = None -> dget (inter S1) n = None) | _ => True end.
Proof.
  intros HI Q H F G C1 (id & n & m & i & c & bs & t & -> & Wi & Wt) (id_ & n_ & m_ & i_ & c_ & bs_ & t_ & X & Qm & Lid) U. injection X as <- <- <- <- <- <- <-.
  set (pr := PReq id n m i c bs t) in *. assert (En : pname pr = Some (id, n, interruptible m)) by reflexivity. rewrite (launch_eq pr id n _ S1 En). rewrite (u_acts _ _ _ _ _ U).
  destruct (dget (acts S) n) as [ev|] eqn:Ea; [|exact I]. assert (Ct : forall k, count k (pr :: l) = (if String.eqb k n then 1 else 0) + count k l) by (intros k; eapply count_cons; exact En).
  assert (C0 : 0 < count n (pr :: l)) by (rewrite Ct, String.eqb_refl; lia). assert (Cn : count n l = 0) by (specialize (C1 n); rewrite Ct, String.eqb_refl in C1; lia).
  assert (Cl : forall k, 0 < count k l -> k <> n /\ 0 < count k (pr :: l)) by (intros k Hk; split; [intros ->; lia|rewrite Ct; lia]).
  destruct (q_acts _ _ Q n ev Ea) as (e & He & Re). pose proof (u_old _ _ _ _ _ U n ev e Ea C0 He) as He1.
  assert (Et : trig S1 ev = atrig n S) by (unfold atrig; rewrite Ea; unfold trig; rewrite He, He1; reflexivity). rewrite Et.
  destruct (dget (extras S) n) as [p|] eqn:Ex; [|elim (g_ext _ _ _ G n ev Ea Ex)].
  destruct (s_ext _ _ _ H n p Ex) as (r & ev' & Hp & Hx & _).
  assert (N0 : 0 <> p) by (intros E; exact (main_ext _ _ _ n H (eq_trans Ex (f_equal Some (eq_sym E))))).
  assert (K : busy n (pcode r) \/ pcode r = KExtraAct n).
  { destruct (pcode r) as [| | | |k|k|k pro|k pro| | | | | | |] eqn:Hk; try contradiction; cbn in Hx; subst k; [elim (f_new _ _ F p r n Hp Hk)|right; reflexivity|left; reflexivity|left; reflexivity]. }
  destruct (atrig n S) eqn:At.
  - destruct K as [K|K]; [|rewrite (f_idle _ _ F p r n Hp) in At; congruence].
    rewrite (u_int _ _ _ _ _ U n C0). destruct (dget (inter S) n) as [id'|] eqn:Ei; [|elim (f_busy _ _ F p r n Hp); [congruence|exact K|exact Ei]].
    destruct (Nat.eqb_spec id id') as [E|Nid]; [congruence|]. unfold inter_set. set (S1' := set_inter (dset (inter S1) n id) S1). unfold interrupt_extra, bind, get. change (extras S1') with (extras S1). rewrite (v_ext _ _ _ (u_mv _ _ _ _ _ U)), Ex.
    rewrite (interrupt_eq 0 p S1' (u_own _ _ _ _ _ U n p Ex) N0). set (S2 := struck p S1').
    assert (M : Mv 0 S1 S2) by (eapply Mv_trans; [apply (Mv_same 0 S1 S1'); reflexivity|apply Mv_struck]).
    assert (Q1 : Que (Some 0) S1') by (apply (Que_same (Some 0) S1); try reflexivity; exact (u_que _ _ _ _ _ U)).
    assert (I2 : forall k, dget (inter S2) k = if String.eqb k n then Some id else dget (inter S1) k).
    { intros k. change (inter S2) with (dset (inter S1) n id). destruct (String.eqb_spec k n) as [->|Nk]; [apply dget_dset_eq|apply dget_dset_neq; congruence]. }
    assert (Hi : forall k, dget (inter S2) k = None -> dget (inter S1) k = None) by (intros k; rewrite I2; destruct (String.eqb k n); [discriminate|auto]).
    split; [|split; [|split; [exact M|exact Hi]]].
    + constructor.
      * exact (Mv_trans _ _ _ _ (u_mv _ _ _ _ _ U) M).
      * exact (u_prs _ _ _ _ _ U).
      * exact (u_acts _ _ _ _ _ U).
      * exact (u_todo _ _ _ _ _ U).
      * exact (u_ss _ _ _ _ _ U).
      * apply Que_struck. exact Q1.
      * intros k evk ek Hk Ck Hek. destruct (Cl k Ck) as [_ Ck']. exact (at_added_old _ _ _ _ (u_old _ _ _ _ _ U k evk ek Hk Ck' Hek)).
      * intros k Ck. destruct (Cl k Ck) as [Nk Ck']. rewrite I2. destruct (String.eqb_spec k n); [contradiction|]. exact (u_int _ _ _ _ _ U k Ck').
      * intros k pk Hk. pose proof (u_own _ _ _ _ _ U k pk Hk) as E. unfold ended, trig in *. change (own_event pk S2) with (own_event pk S1). 
        destruct (s_ext _ _ _ H k pk Hk) as (rk & _ & Hpk & _). destruct (i_own _ HI pk rk Hpk) as (eo & Ho & _). destruct (v_evs _ _ _ (u_mv _ _ _ _ _ U) _ _ Ho) as (eo' & Ho' & _).
        assert (Eo : own_event pk S1 = pown rk) by (unfold own_event; rewrite (u_prs _ _ _ _ _ U); change (nth_error (prs S) pk) with (proc_at pk S); rewrite Hpk; reflexivity).
        rewrite Eo in *. rewrite Ho' in E. rewrite (at_added_old _ _ (MkEvt (RInt p) (Some (Bad TInterrupt)) true (Some [CInt p])) S1' (Ho' : event_at (pown rk) S1' = Some eo') : event_at (pown rk) S2 = Some eo'). exact E.
      * intros k Hk. exact (u_keep _ _ _ _ _ U k (Hi k Hk)).
      * intros k idk. rewrite I2. destruct (String.eqb k n); [intros [= <-]; exact Lid|exact (u_ids _ _ _ _ _ U k idk)].
    + exists id, n, m, i, c, bs, t. split; [reflexivity|]. split; [exact Wt|]. split; [rewrite I2, String.eqb_refl; discriminate|]. exists p, r. split; [exact Ex|]. split; [exact Hp|]. left. split; [exact K|].
      exists (MkQ (now S1' + 0) URGENT (eid S1') (List.length (evs S1'))). split; [apply in_or_app; right; left; reflexivity|]. cbn [qev]. exists (MkEvt (RInt p) (Some (Bad TInterrupt)) true (Some [CInt p])). split; [change (event_at (List.length (evs S1')) (added (MkEvt (RInt p) (Some (Bad TInterrupt)) true (Some [CInt p])) S1') = Some (MkEvt (RInt p) (Some (Bad TInterrupt)) true (Some [CInt p]))); rewrite at_added, Nat.eqb_refl; reflexivity|split; [reflexivity|discriminate]].
  - destruct K as [K|K]; [pose proof (s_busy _ _ _ H p r n Hp K); congruence|].
    assert (Ve : evalue e = None) by (unfold trig, triggered in Et; rewrite He1 in Et; destruct (evalue e); [discriminate|reflexivity]).
    set (S1' := inter_set (interruptible m) n id S1).
    assert (E1 : event_at ev S1' = Some e) by (unfold S1', inter_set; destruct (interruptible m); exact He1).
    rewrite (succeed_eq ev e S1' E1 Ve). set (S2 := fired ev e S1').
    assert (Same : Mv 0 S1 S1' /\ prs S1' = prs S1 /\ acts S1' = acts S1 /\ todo S1' = todo S1 /\ ss S1' = ss S1 /\ evs S1' = evs S1 /\ Que (Some 0) S1').
    { unfold S1', inter_set. destruct (interruptible m); repeat (split; [try reflexivity; apply Mv_same; reflexivity|]); [apply (Que_same (Some 0) S1); try reflexivity|]; exact (u_que _ _ _ _ _ U). }
    destruct Same as (M1 & Ep & Eac & Eto & Ess & Eev & Q1).
    assert (M : Mv 0 S1 S2) by (eapply Mv_trans; [exact M1|apply Mv_fired; auto]).
    assert (I2 : forall k, dget (inter S2) k = if (String.eqb k n && interruptible m)%bool then Some id else dget (inter S1) k).
    { intros k. change (inter S2) with (inter S1'). unfold S1', inter_set. destruct (interruptible m); [|rewrite Bool.andb_false_r; reflexivity]. rewrite Bool.andb_true_r. cbn [inter set_inter]. destruct (String.eqb_spec k n) as [->|Nk]; [apply dget_dset_eq|apply dget_dset_neq; congruence]. }
    assert (Hi : forall k, dget (inter S2) k = None -> dget (inter S1) k = None) by (intros k; rewrite I2; destruct (String.eqb k n && interruptible m)%bool; [discriminate|auto]).
    assert (Ev2 : forall k, event_at k S2 = if Nat.eqb k ev then Some (valued (Good XUnit) e) else event_at k S1).
    { intros k. change (event_at k S2) with (event_at k (changed ev (valued (Good XUnit) e) S1')). rewrite (at_changed _ _ _ _ _ E1). unfold event_at. rewrite Eev. reflexivity. }
    split; [|split; [|split; [exact M|exact Hi]]].
    + constructor.
      * exact (Mv_trans _ _ _ _ (u_mv _ _ _ _ _ U) M).
      * change (prs S2) with (prs S1'). rewrite Ep. exact (u_prs _ _ _ _ _ U).
      * change (acts S2) with (acts S1'). rewrite Eac. exact (u_acts _ _ _ _ _ U).
      * change (todo S2) with (todo S1'). rewrite Eto. exact (u_todo _ _ _ _ _ U).
      * change (ss S2) with (ss S1'). rewrite Ess. exact (u_ss _ _ _ _ _ U).
      * apply Que_fired; auto. rewrite Re. reflexivity.
      * intros k evk ek Hk Ck Hek. destruct (Cl k Ck) as [Nk Ck']. rewrite Ev2. destruct (Nat.eqb_spec evk ev) as [E|_]; [|exact (u_old _ _ _ _ _ U k evk ek Hk Ck' Hek)]. subst evk. elim Nk. exact (q_inj _ _ Q _ _ _ Hk Ea).
      * intros k Ck. destruct (Cl k Ck) as [Nk Ck']. rewrite I2. destruct (String.eqb_spec k n); [contradiction|]. exact (u_int _ _ _ _ _ U k Ck').
      * intros k pk Hk. pose proof (u_own _ _ _ _ _ U k pk Hk) as E. unfold ended, trig in *. assert (Eo : own_event pk S2 = own_event pk S1) by (unfold own_event; change (prs S2) with (prs S1'); rewrite Ep; reflexivity). rewrite Eo, Ev2.
        destruct (Nat.eqb_spec (own_event pk S1) ev) as [E'|_]; [|exact E]. exfalso.
        destruct (s_ext _ _ _ H k pk Hk) as (rk & _ & Hpk & _). destruct (i_own _ HI pk rk Hpk) as (eo & Ho & Ro & _).
        assert (Eo2 : own_event pk S1 = pown rk) by (unfold own_event; rewrite (u_prs _ _ _ _ _ U); change (nth_error (prs S) pk) with (proc_at pk S); rewrite Hpk; reflexivity). congruence.
      * intros k Hk. exact (u_keep _ _ _ _ _ U k (Hi k Hk)).
      * intros k idk. rewrite I2. destruct (String.eqb k n && interruptible m)%bool; [intros [= <-]; exact Lid|exact (u_ids _ _ _ _ _ U k idk)].
    + exists id, n, m, i, c, bs, t. split; [reflexivity|]. split; [exact Wt|]. split; [rewrite I2, String.eqb_refl; destruct m; cbn in Qm |- *; try discriminate; reflexivity|]. exists p, r. split; [exact Ex|]. split; [exact Hp|]. right. split; [exact K|].
      exists ev, (MkQ (now S1' + 0) NORMAL (eid S1') ev). split; [exact Ea|]. split; [apply in_or_app; right; left; reflexivity|reflexivity].
Qed.
Lemma launch_list w s1 S W l0 : Inv S -> Que (Some 0) S -> Sem W (Some 0) S -> Fires (Some 0) S -> Gen None (Some 0) S ->
  (forall x, In x l0 -> waits S x) -> (forall x, In x l0 -> exists id n m i c bs t, x = PReq id n m i c bs t /\ queues m = true /\ id < snext (ss S)) ->
  forall l, (forall x, In x l -> In x l0) -> forall S1 dn, (forall n, count n l <= 1) -> Lau w s1 S l S1 -> (forall x, In x dn -> called_ S S1 x) ->
  match launch_all 0 l S1 with (S2, inl _) => Lau w s1 S [] S2 /\ forall x, In x dn \/ In x l -> called_ S S2 x | _ => True end.
Proof.
  intros HI Q H F G Hw Hq. induction l as [|pr l IH]; intros Hl S1 dn C U Hd; cbn [launch_all]; [split; [exact U|intros x [Hx|[]]; exact (Hd x Hx)]|].
  unfold bind. pose proof (launch_one w s1 S pr l S1 W HI Q H F G C (Hw pr (Hl pr (or_introl eq_refl))) (Hq pr (Hl pr (or_introl eq_refl))) U) as L1. destruct (launch 0 pr S1) as [S2 [[]|f]]; [|exact I].
  destruct L1 as (U2 & D2 & M & Hi).
  assert (C2 : forall n, count n l <= 1).
  { intros n. specialize (C n). destruct (Hq pr (Hl pr (or_introl eq_refl))) as (id & n0 & m & i & c & bs & t & -> & _). rewrite (count_cons (PReq id n0 m i c bs t) id n0 _ l n eq_refl) in C. lia. }
  specialize (IH (fun x Hx => Hl x (or_intror Hx)) S2 (pr :: dn) C2 U2). destruct (launch_all 0 l S2) as [S3 [[]|f]]; [|exact I].
  destruct IH as [U3 D3]; [intros x [<-|Hx]; [exact D2|exact (called_keeps S S1 S2 x M Hi (Hd x Hx))]|]. split; [exact U3|].
  intros x [Hx|[<-|Hx]]; apply D3; [left; right; exact Hx|left; left; reflexivity|right; exact Hx].
Qed.
Lemma remove_crew l1 l2 : (forall x, In x l1 -> x <> PProc) -> remove_procedural (l1 ++ PProc :: l2) = Some (l1 ++ l2).
Proof.
  induction l1 as [|x l1 IH]; intros H; [reflexivity|]. cbn [app remove_procedural]. rewrite IH by (intros y Hy; apply H; right; exact Hy). destruct x; [|reflexivity|reflexivity]. elim (H PProc (or_introl eq_refl) eq_refl).
Qed.

Section Model.
Variables (O : oracle) (tie : string -> string -> bool) (t : Z) (s : st).
Hypothesis CO : compiles_with O tie.
Hypothesis H1 : one_request s.
Hypothesis H2 : plain_names s.
Hypothesis V : svars s = nobind.
Hypothesis Es : sprocs s = [].
Hypothesis Nd : NoDup (dkeys (snames s)).
Hypothesis SE : slow_eyes O.
Local Notation Turn := (Turn O t s).
Local Notation Fin := (Fin O).
Local Notation Quiet := (Quiet O).
Let turn_parts := turn_parts O tie t s CO H1 H2 V.
Let land_fail := land_fail O tie t s CO H1 H2 V.
Let land_park := land_park O tie t s CO H1 H2 V Es Nd.
Let turn_bad := turn_bad O t s.

(** A rule has been fired. *)
Lemma main_over o w r f S : Turn 0 o w r S -> pcode r = KProcPro f -> Fires (Some 0) S -> Gen None (Some 0) S -> Fin S.
Proof.
  intros T Hc F G. destruct (turn_parts _ _ _ _ _ T) as (HI & Mn & Q & Se & Ac). assert (Hp := t_proc _ _ _ _ _ _ _ _ T).
  destruct o as [v|[x| |]]; [|exact (turn_bad _ _ _ _ _ T)|contradiction|rewrite Hc in Ac; contradiction].
  assert (L0 : leads_ (pcode r)) by (left; rewrite Hc; exact I).
  destruct (open_main O tie t s CO H1 H2 V v w r f S T Hc) as (S1 & Hg & Z). pose proof (z_que _ _ _ Z) as Q1. destruct (f_crew _ _ F) as (l1 & l2 & El & Hw).
  assert (Er : remove_procedural (sprocs (ss S)) = Some (l1 ++ l2)).
  { rewrite El. apply remove_crew. intros x Hx. destruct (Hw x (in_or_app _ _ _ (or_introl Hx))) as (id & n & m & i & c & bs & t0 & -> & _). discriminate. }
  unfold proc_loop, bind at 1, get at 1, get_started in Hg. rewrite (z_early _ _ _ Z), (z_ss _ _ _ Z), Er in Hg. unfold bind at 1, upd_ at 1, put_started in Hg. rewrite (z_early _ _ _ Z), (z_ss _ _ _ Z) in Hg.
  set (l := l1 ++ l2) in *. set (s1 := set_procs l (snext (ss S)) (ss S)) in *. set (B := set_ss s1 S1) in *.
  assert (Hin : forall x, In x l -> In x (sprocs (ss S))) by (intros x Hx; rewrite El; apply in_app_or in Hx; apply in_or_app; destruct Hx; [left|right; right]; assumption).
  assert (Hq : forall x, In x l -> exists id n m i c bs t, x = PReq id n m i c bs t /\ queues m = true /\ id < snext (ss S)).
  { intros x Hx. destruct (g_list _ _ _ G x (Hin x Hx)) as [E|E]; [|exact E]. subst x. destruct (Hw _ Hx) as (id & n & m & i & c & bs & t0 & D & _). discriminate. }
  assert (Cn : forall n, count n l <= 1) by (intros n; unfold count; rewrite (remove_names _ _ Er); exact (f_cnt _ _ F n)).
  assert (U : Lau w s1 S l B).
  { constructor; auto.
    - eapply Mv_trans; [exact (z_mv _ _ _ Z)|apply Mv_same; reflexivity].
    - exact (z_prs _ _ _ Z).
    - exact (z_acts _ _ _ Z).
    - exact (z_todo _ _ _ Z).
    - apply (Que_same (Some 0) S1); auto.
    - intros n ev e _ _ He. exact (z_evs _ _ _ Z _ _ He).
    - intros n _. change (inter B) with (inter S1). rewrite (z_inter _ _ _ Z). reflexivity.
    - intros n p Hn. destruct (Inv_live _ _ _ HI Se n p Hn) as (e & He & _ & Ve). unfold ended, trig. assert (Eo : own_event p B = own_event p S) by (unfold own_event; change (prs B) with (prs S1); rewrite (z_prs _ _ _ Z); reflexivity).
      rewrite Eo. change (event_at (own_event p S) B) with (event_at (own_event p S) S1). rewrite (z_evs _ _ _ Z _ _ He). unfold triggered. rewrite Ve. reflexivity.
    - intros n. change (inter B) with (inter S1). rewrite (z_inter _ _ _ Z). auto.
    - intros n id. change (inter B) with (inter S1). rewrite (z_inter _ _ _ Z). exact (g_inter _ _ _ G n id). }
  pose proof (launch_list w s1 S _ l HI Q Se F G Hw Hq l (fun x Hx => Hx) B [] Cn U ltac:(intros x [])) as Hl. unfold bind in Hg.
  destruct (launch_all 0 l B) as [S2 [[]|fl]]; [|exact (land_fail _ _ _ _ _ T _ _ Hg)]. destruct Hl as [U2 D2].
  unfold zero, bind in Hg. rewrite timeout_eq in Hg. change (Z.ltb 0 0) with false in Hg. cbv iota beta in Hg. unfold ret in Hg.
  set (ob := List.length (evs S2)) in *. set (x0 := MkEvt (RTime (now S2 + 0)) (Some (Good XUnit)) false (Some [])).
  assert (E2 : event_at ob (timed 0 S2) = Some x0) by (change (event_at ob (added x0 S2) = Some x0); rewrite at_added; unfold ob; rewrite Nat.eqb_refl; reflexivity).
  assert (Hp2 : proc_at 0 (timed 0 S2) = Some r) by (unfold proc_at; change (prs (timed 0 S2)) with (prs S2); rewrite (u_prs _ _ _ _ _ U2); exact Hp).
  apply (land_park 0 (Good v) w r S T _ _ _ x0 Hg (u_todo _ _ _ _ _ U2) E2 eq_refl). intros HI3 Q3. set (c := KProcZero 4) in *. set (S3 := parked 0 r c ob x0 (timed 0 S2)) in *. set (r3 := MkPrc (pkind r) (pown r) ob c).
  assert (Hp3 : forall i, proc_at i S3 = if Nat.eqb i 0 then Some r3 else proc_at i S).
  { intros i. unfold S3. rewrite (pat_parked 0 r c ob x0 _ Hp2). destruct (Nat.eqb i 0); [reflexivity|]. unfold proc_at. change (prs (timed 0 S2)) with (prs S2). rewrite (u_prs _ _ _ _ _ U2). reflexivity. }
  assert (M23 : Mv 0 S2 S3) by (eapply Mv_trans; [apply (Mv_timed 0 0)|]; apply Mv_parked; auto).
  assert (M : Mv 0 S S3) by exact (Mv_trans _ _ _ _ (u_mv _ _ _ _ _ U2) M23).
  set (q := MkQ (now S2 + 0) NORMAL (eid S2) ob).
  assert (Gq : Gen (Some (6, Some q)) (Some 0) S).
  { pose proof (v_eid _ _ _ (u_mv _ _ _ _ _ U2)) as Le. apply (Gen_limit None _ _ _ HI Q G); [|right]; intros x k Hx Px Hk _ Tx; [|lia]. destruct (q_heap _ _ Q x Hx) as (Ix & _). cbn [q qid]. lia. }
  assert (Es3 : ss S3 = s1) by exact (u_ss _ _ _ _ _ U2).
  exists (SZero 4 q). split; [|split].
  - apply (Gen_move _ 0 None S S3 r r3 HI HI3 Q Q3 Gq M Hp); auto.
    + rewrite Hp3. reflexivity.
    + right. split; [reflexivity|exact I].
    + intros i x Hi Hi0. rewrite Hp3 in Hi. destruct (Nat.eqb_spec i 0) as [->|]; congruence.
    + intros n ev x _ _ _ _ _. lia.
    + intros n ev Hn. left. change (acts S3) with (acts S2) in Hn. rewrite (u_acts _ _ _ _ _ U2) in Hn. exact Hn.
    + intros n. right. exact (u_keep _ _ _ _ _ U2 n).
    + intros i x n _ Hi Hx _. elim (leader_alone S 0 r i x n HI Hp L0 Hi (or_introl Hx)).
    + intros i x n q' _ Hi Hx. elim (leader_alone S 0 r i x n HI Hp L0 Hi Hx).
    + rewrite Es3. intros pr Hpr. right. exact (Hq pr Hpr).
    + rewrite Es3. exact (u_ids _ _ _ _ _ U2).
  - exists r3. split; [rewrite Hp3; reflexivity|]. split; [reflexivity|]. split; [lia|]. split; [apply in_or_app; right; left; reflexivity|]. split; [reflexivity|]. cbn [q qtime]. change (now S3) with (now S2). lia.
  - cbn [Kind Nat.eqb]. constructor.
    + intros n. unfold cnt. rewrite Es3. exact (Cn n).
    + rewrite Es3. intros x Hx. destruct (D2 x (or_intror Hx)) as (id & n & m & i & c0 & bs & t0 & X1 & X2 & X3 & p & rp & X4 & X5 & X6). exists id, n, m, i, c0, bs, t0.
      split; [exact X1|]. split; [rewrite (v_now _ _ _ M); exact X2|]. split; [exact X3|]. right. assert (Np : p <> 0) by (intros ->; exact (main_ext _ _ _ n Se X4)).
      exists p, rp. split; [rewrite (v_ext _ _ _ M); exact X4|]. split; [exact (v_prs _ _ _ M p rp Np X5)|].
      destruct X6 as [(K & y & Y1 & (e & Y2 & Y3 & Y4))|(K & ev & qa & Y1 & Y2 & Y3)]; [left|right]; (split; [exact K|]).
      * exists y. split; [exact (Mv_in _ _ _ _ M23 Y1)|]. destruct (v_evs _ _ _ M23 _ _ Y2) as (e' & W1 & W2 & W3 & _). exists e'. split; [exact W1|]. split; [congruence|]. rewrite <- W3. exact Y4.
      * exists ev, qa. split; [change (acts S3) with (acts S2); rewrite (u_acts _ _ _ _ _ U2); exact Y1|]. split; [exact (Mv_in _ _ _ _ M23 Y2)|]. split; [exact Y3|]. cbn [q qid]. destruct (q_heap _ _ (u_que _ _ _ _ _ U2) qa Y2) as (L & _). exact L.
Qed.
End Model.
