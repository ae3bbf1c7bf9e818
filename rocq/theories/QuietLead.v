(** Simulations without environment: when they stop by themselves, no rule matches.  The process of the rules, and the one that calls it. *)
From Coq Require Import Lia Sorted.
From Verif Require Import Base BaseFacts Chunks DecMem Buffers BufferFacts Productions ProdSpec LearnFacts Sim SimSpec SimFacts CompileFacts RunFacts LiftFacts SafeSpec RequestFacts RoundFacts QuietGens QueueFacts SafeFacts SafeSteps SafeMain FailFacts SafeRuns BrokenFacts QuietFacts QuietSteps QuietRuns.
Local Open Scope string_scope.
Local Open Scope list_scope.
Local Open Scope nat_scope.

(** What these two leave behind. *)
Record Lead (p : nat) (r r' : prc) (S S' : sim) : Prop := MkLead {
  d_mv : Mv p S S';
  d_p : proc_at p S = Some r;
  d_p' : proc_at p S' = Some r';
  d_own : pown r' = pown r;
  d_inter : inter S' = inter S;
  d_acts : acts S' = acts S;
  d_atrig : forall n, atrig n S' = atrig n S;
  d_vals : forall ev e', event_at ev S' = Some e' -> (exists e, event_at ev S = Some e /\ evalue e = evalue e') \/ forall g, evalue e' <> Some (Good (XCont g));
  d_new : forall i x, proc_at i S' = Some x -> proc_at i S = None -> exists m g, pcode x = KLocal0 true m g;
  d_heap : forall q, In q (heap S') -> ~ In q (heap S) -> (forall i, ~ role_at (qev q) (RInt i) S') /\ forall m, dget (acts S) m <> Some (qev q) }.
Definition leads_ (c : code) : Prop := mcode c \/ chief c.
Lemma leader_alone S p r i x m : Inv S -> proc_at p S = Some r -> leads_ (pcode r) -> proc_at i S = Some x -> pcode x = KExtraPro m p \/ pcode x = KExtraCont m p -> False.
Proof.
  intros HI Hp Hl Hi Hx. pose proof (i_fits _ HI i x Hi) as F. destruct (i_kind _ HI p r Hp) as [K _].
  assert (X : exists y, proc_at p S = Some y /\ pkind y = Some (GLocal false m)) by (destruct Hx as [E|E]; rewrite E in F; destruct F as (y & Hy & Ky & _); eauto).
  destruct X as (y & Hy & Ky). assert (y = r) by congruence. subst y.
  destruct K as [K|K]; [rewrite K in Hl; destruct Hl; contradiction|]. rewrite K in Ky. destruct (pcode r) as [|f| |k|n|n|n pro|n pro|[|] n g|[|] n e0 g|g|pro g|e0|e0|]; cbn in Ky; try discriminate; destruct Hl; contradiction.
Qed.
Section LeadFacts.
Variables (p : nat) (r r' : prc) (S S' : sim).
Hypothesis A : Lead p r r' S S'.
Hypothesis Q : Que (Some p) S.
Let M := d_mv _ _ _ _ _ A.

Lemma lead_gen_ b L : Inv S -> Inv S' -> Que b S' -> Gen L (Some p) S -> leads_ (pcode r) -> (b = Some p \/ (b = None /\ Load L S' r')) ->
  (forall pr, In pr (sprocs (ss S')) -> pr = PProc \/ exists id n m i c bs t, pr = PReq id n m i c bs t /\ queues m = true /\ id < snext (ss S')) ->
  snext (ss S) <= snext (ss S') -> Gen L b S'.
Proof.
  intros HI HI' Q' G Hl Ll Hs Hn.
  apply (Gen_move L p b S S' r r' HI HI' Q Q' G M (d_p _ _ _ _ _ A) (d_p' _ _ _ _ _ A) (d_own _ _ _ _ _ A)); auto.
  - intros i x Hi Hi0. destruct (d_new _ _ _ _ _ A i x Hi Hi0) as (m & g & E). unfold Load. rewrite E. exact I.
  - intros n ev q Hev Hq Eq Hq0. rewrite (d_acts _ _ _ _ _ A) in Hev. elim (proj2 (d_heap _ _ _ _ _ A q Hq Hq0) n). congruence.
  - intros n ev Hev. left. rewrite <- (d_acts _ _ _ _ _ A). exact Hev.
  - intros n. right. rewrite (d_inter _ _ _ _ _ A). auto.
  - intros i x n _ Hi Hx _. elim (leader_alone S p r i x n HI (d_p _ _ _ _ _ A) Hl Hi (or_introl Hx)).
  - intros i x n q _ Hi Hx. elim (leader_alone S p r i x n HI (d_p _ _ _ _ _ A) Hl Hi Hx).
  - intros n id Hi. rewrite (d_inter _ _ _ _ _ A) in Hi. pose proof (g_inter _ _ _ G n id Hi). lia.
Qed.
Lemma lead_gen L : Inv S -> Inv S' -> Que None S' -> Gen L (Some p) S -> leads_ (pcode r) -> Load L S' r' ->
  (forall pr, In pr (sprocs (ss S')) -> pr = PProc \/ exists id n m i c bs t, pr = PReq id n m i c bs t /\ queues m = true /\ id < snext (ss S')) ->
  snext (ss S) <= snext (ss S') -> Gen L None S'.
Proof. intros HI HI' Q' G Hl Ll Hs Hn. apply (lead_gen_ None L HI HI' Q' G Hl); auto. Qed.
Lemma lead_split q : In q (heap S') -> In q (heap S) \/ ~ In q (heap S).
Proof.
  intros H. destruct (v_heap _ _ _ M) as (new & Eh & Hn). rewrite Eh in H. apply in_app_or in H. destruct H as [H|H]; [left; exact H|right].
  intros H2. destruct (Hn q H) as (H3 & _). destruct (q_heap _ _ Q q H2) as (H4 & _). lia.
Qed.
Lemma lead_NoHits : NoHits S -> NoHits S'.
Proof.
  intros H q i Hq R. destruct (lead_split q Hq) as [X|X]; [|exact (proj1 (d_heap _ _ _ _ _ A q Hq X) i R)]. destruct (q_heap _ _ Q q X) as (_ & _ & e & He & _). apply (H q i X).
  destruct R as (e' & He' & R). destruct (v_evs _ _ _ M _ _ He) as (e2 & Y & Z & _). exists e. split; [exact He|]. congruence.
Qed.
Lemma lead_old i x : proc_at i S' = Some x -> i <> p -> (forall m g, pcode x <> KLocal0 true m g) -> proc_at i S = Some x.
Proof.
  intros Hx N Hc. destruct (proc_at i S) as [y|] eqn:Hy; [rewrite (v_prs _ _ _ M i y N Hy) in Hx; exact Hx|]. destruct (d_new _ _ _ _ _ A i x Hx Hy) as (m & g & E). elim (Hc m g E).
Qed.
Lemma lead_NoBaby : NoBaby S -> leads_ (pcode r') \/ pcode r' = KEnd -> NoBaby S'.
Proof.
  intros H Hl i x n g Hx Hc. destruct (Nat.eq_dec i p) as [->|N].
  - pose proof (d_p' _ _ _ _ _ A) as X. assert (x = r') by congruence. subst x. rewrite Hc in Hl. destruct Hl as [[Y|Y]|Y]; [contradiction|contradiction|discriminate].
  - apply (H i x n g); [|exact Hc]. apply lead_old; auto. congruence.
Qed.
Lemma lead_NoCont : Inv S' -> NoCont S -> leads_ (pcode r') \/ pcode r' = KEnd -> NoCont S'.
Proof.
  intros HI H Hl i x n pro e g Hx Hc He V. destruct (Nat.eq_dec i p) as [->|N].
  - pose proof (d_p' _ _ _ _ _ A) as X. assert (x = r') by congruence. subst x. rewrite Hc in Hl. destruct Hl as [[Y|Y]|Y]; [contradiction|contradiction|discriminate].
  - assert (Hx0 : proc_at i S = Some x) by (apply lead_old; auto; congruence). destruct (d_vals _ _ _ _ _ A _ _ He) as [(e0 & He0 & V0)|X]; [|exact (X g V)]. apply (H i x n pro e0 g Hx0 Hc He0). congruence.
Qed.
Lemma lead_Idle : Inv S' -> Idle S -> leads_ (pcode r) -> leads_ (pcode r') \/ pcode r' = KEnd -> (NoMatch (ss S) -> NoMatch (ss S')) -> Idle S'.
Proof.
  intros HI (I1 & I2 & I3) Hl Hl' Hm. split; [|split; [exact (lead_NoBaby I2 Hl')|exact (lead_NoCont HI I3 Hl')]].
  destruct I1 as [I1|(i & x & n & e & g & X1 & X2)]; [left; exact (Hm I1)|right]. exists i, x, n, e, g. split; [|exact X2]. apply (v_prs _ _ _ M); [|exact X1]. intros ->. pose proof (d_p _ _ _ _ _ A) as Y. assert (x = r) by congruence. subst x. rewrite X2 in Hl. destruct Hl; contradiction.
Qed.
Lemma lead_Fires : Fires (Some p) S -> leads_ (pcode r') \/ pcode r' = KEnd -> Crew S' -> (forall n, cnt n S' <= 1) -> Fires None S'.
Proof.
  intros [F1 F2 F3 F4 F5 F6 F7] Hl Cr Ct. assert (Hx : forall i x n, proc_at i S' = Some x -> xcode n (pcode x) -> i <> p /\ proc_at i S = Some x).
  { intros i x n Hi Hx. assert (Ni : i <> p) by (intros ->; pose proof (d_p' _ _ _ _ _ A) as X; assert (x = r') by congruence; subst x; destruct (pcode r') as [|f| |k|m|m|m pro|m pro|[|] m g|[|] m e0 g|g|pro g|e0|e0|]; try contradiction; destruct Hl as [[Y|Y]|Y]; try contradiction; discriminate).
    split; [exact Ni|]. apply lead_old; auto. intros m g E. rewrite E in Hx. contradiction. }
  constructor; auto.
  - exact (lead_NoHits F1).
  - intros n ev q Hn Hq. rewrite (d_acts _ _ _ _ _ A) in Hn. destruct (lead_split q Hq) as [X|X]; [exact (F2 n ev q Hn X)|]. intros Y. elim (proj2 (d_heap _ _ _ _ _ A q Hq X) n). congruence.
  - intros i x n Hi Hc. destruct (Hx i x n Hi) as [X1 X2]; [rewrite Hc; reflexivity|]. exact (F3 i x n X2 Hc).
  - intros i x n Hi _ Hb. destruct (Hx i x n Hi) as [X1 X2]; [destruct (pcode x); try contradiction; exact Hb|]. rewrite (d_inter _ _ _ _ _ A). apply (F6 i x n X2); [congruence|exact Hb].
  - intros i x n Hi _ Hc. destruct (Hx i x n Hi) as [X1 X2]; [rewrite Hc; reflexivity|]. rewrite (d_atrig _ _ _ _ _ A). apply (F7 i x n X2); [congruence|exact Hc].
Qed.
End LeadFacts.

(** ** Three ways to come to rest *)

Section Rests.
Variables (p w : nat) (r : prc) (S S1 : sim) (s' : st).
Hypothesis Hp : proc_at p S = Some r.
Hypothesis Q : Que (Some p) S.
Hypothesis E : LPre p w S S1.
Let Q1 := l_que _ _ _ _ E.
Let S2 := set_ss s' S1.
Let Hr2 : proc_at p S2 = Some r. Proof. unfold proc_at, S2. cbn. rewrite (l_prs _ _ _ _ E). exact Hp. Qed.
Let N1 : now S1 = now S := v_now _ _ _ (l_mv _ _ _ _ E).
Lemma lpre_atrig S3 : acts S3 = acts S1 -> (forall ev e, event_at ev S1 = Some e -> erole e = RAct -> event_at ev S3 = Some e) -> forall m, atrig m S3 = atrig m S.
Proof.
  intros Ea Ev m. unfold atrig. rewrite Ea, (l_acts _ _ _ _ E). destruct (dget (acts S) m) as [ev|] eqn:Em; [|reflexivity]. destruct (q_acts _ _ Q m ev Em) as (y & Hy & Ry).
  assert (N : ev <> pact S) by (intros Y; apply (q_apart _ _ Q m); congruence). unfold trig. rewrite (Ev ev y), Hy; auto. exact (l_evs _ _ _ _ E ev y N Hy).
Qed.

(** It waits for a timeout. *)
Section Wait.
Variables (c : code) (dd : Z).
Let ob := List.length (evs S1).
Let x0 := MkEvt (RTime (now S1 + dd)) (Some (Good XUnit)) false (Some []).
Let S3 := parked p r c ob x0 (timed dd S2).
Let r3 := MkPrc (pkind r) (pown r) ob c.
Lemma wait_at : event_at ob (timed dd S2) = Some x0.
Proof. change (event_at ob (added x0 S2) = Some x0). rewrite at_added. unfold ob. change (List.length (evs S2)) with (List.length (evs S1)). rewrite Nat.eqb_refl. reflexivity. Qed.
Lemma wait_evs ev : event_at ev S3 = if Nat.eqb ev ob then Some (MkEvt (RTime (now S1 + dd)) (Some (Good XUnit)) false (Some [CResume p])) else event_at ev S1.
Proof.
  unfold S3. rewrite (at_parked p r c ob x0 _ wait_at). destruct (Nat.eqb_spec ev ob); [reflexivity|]. change (event_at ev (timed dd S2)) with (event_at ev (added x0 S2)). rewrite at_added. destruct (Nat.eqb_spec ev (List.length (evs S2))); [contradiction|reflexivity].
Qed.
Lemma wait_prs i : proc_at i S3 = if Nat.eqb i p then Some r3 else proc_at i S.
Proof. unfold S3. rewrite (pat_parked p r c ob x0 (timed dd S2) Hr2). unfold proc_at, S2. cbn. rewrite (l_prs _ _ _ _ E). reflexivity. Qed.
Lemma wait_entry : In (MkQ (now S1 + dd) NORMAL (eid S1) ob) (heap S3).
Proof. change (In (MkQ (now S1 + dd) NORMAL (eid S1) ob) (heap S1 ++ [MkQ (now S1 + dd) NORMAL (eid S1) ob])). apply in_or_app. right. left. reflexivity. Qed.
Lemma wait_lead : Que None S3 -> Lead p r r3 S S3.
Proof.
  intros Q3. constructor; auto.
  - eapply Mv_trans; [exact (l_mv _ _ _ _ E)|]. eapply Mv_trans; [apply (Mv_same p S1 S2); reflexivity|]. eapply Mv_trans; [apply (Mv_timed p dd)|]. apply Mv_parked; auto. exact wait_at.
  - rewrite wait_prs, Nat.eqb_refl. reflexivity.
  - exact (l_inter _ _ _ _ E).
  - exact (l_acts _ _ _ _ E).
  - apply lpre_atrig; [reflexivity|]. intros ev y Hy _. rewrite wait_evs. pose proof (at_old _ _ _ Hy). destruct (Nat.eqb_spec ev ob); [unfold ob in *; lia|exact Hy].
  - intros ev y Hy. rewrite wait_evs in Hy. destruct (Nat.eqb_spec ev ob) as [Z|]; [injection Hy as <-; right; discriminate|]. destruct (l_evs' _ _ _ _ E ev y Hy) as [Z|Z]; [left; exists y; auto|right; exact Z].
  - intros i x Hi Hi0. rewrite wait_prs in Hi. destruct (Nat.eqb_spec i p) as [->|]; congruence.
  - assert (Hh : forall q, In q (heap S3) -> ~ In q (heap S) -> qev q = ob \/ qev q = pact S).
    { intros q Hq Hq0. change (In q (heap S1 ++ [MkQ (now S1 + dd) NORMAL (eid S1) ob])) in Hq. apply in_app_or in Hq. destruct Hq as [Hq|[<-|[]]]; [right; exact (l_heap _ _ _ _ E q Hq Hq0)|left; reflexivity]. }
    intros q Hq Hq0. destruct (q_pact _ _ Q3) as (y & Hy & Ry). change (pact S3) with (pact S1) in Hy. rewrite (l_pact _ _ _ _ E) in Hy. split.
    + intros i (z & Hz & Rz). destruct (Hh q Hq Hq0) as [Y|Y]; rewrite Y in Hz; [rewrite wait_evs, Nat.eqb_refl in Hz; injection Hz as <-; discriminate|congruence].
    + intros j Hm. destruct (Hh q Hq Hq0) as [Y|Y]; rewrite Y in Hm.
      * destruct (q_acts _ _ Q j _ Hm) as (z & Hz & Rz). destruct (v_evs _ _ _ (l_mv _ _ _ _ E) _ _ Hz) as (z2 & Hz2 & _). pose proof (at_old _ _ _ Hz2). unfold ob in *. lia.
      * exact (q_apart _ _ Q j Hm).
Qed.
End Wait.

(** It ends. *)
Section Done.
Variables (eo : evt) (v : val).
Hypothesis He : event_at (pown r) S2 = Some eo.
Hypothesis Ro : erole eo = ROwn p.
Hypothesis Ve : evalue eo = None.
Hypothesis Hv : forall g, v <> XCont g.
Let S3 := finished p r (Good v) eo S2.
Let r3 := MkPrc (pkind r) (pown r) (ptarget r) KEnd.
Lemma done_evs ev : event_at ev S3 = if Nat.eqb ev (pown r) then Some (valued (Good v) eo) else event_at ev S1.
Proof. exact (at_finished p r (Good v) eo S2 He ev). Qed.
Lemma done_prs i : proc_at i S3 = if Nat.eqb i p then Some r3 else proc_at i S.
Proof. unfold S3. rewrite (pat_finished p r (Good v) eo S2 Hr2). unfold proc_at, S2. cbn. rewrite (l_prs _ _ _ _ E). reflexivity. Qed.
Lemma done_entry : In (MkQ (now S1 + 0) NORMAL (eid S1) (pown r)) (heap S3).
Proof. change (In (MkQ (now S1 + 0) NORMAL (eid S1) (pown r)) (heap S1 ++ [MkQ (now S1 + 0) NORMAL (eid S1) (pown r)])). apply in_or_app. right. left. reflexivity. Qed.
Lemma done_lead : Que None S3 -> Lead p r r3 S S3.
Proof.
  intros Q3. constructor; auto.
  - eapply Mv_trans; [exact (l_mv _ _ _ _ E)|]. eapply Mv_trans; [apply (Mv_same p S1 S2); reflexivity|]. apply Mv_finished; auto. rewrite Ro. discriminate.
  - rewrite done_prs, Nat.eqb_refl. reflexivity.
  - exact (l_inter _ _ _ _ E).
  - exact (l_acts _ _ _ _ E).
  - apply lpre_atrig; [reflexivity|]. intros ev y Hy Ry. rewrite done_evs. destruct (Nat.eqb_spec ev (pown r)) as [Y|]; [|exact Hy]. rewrite Y in Hy. change (event_at (pown r) S1 = Some eo) in He. congruence.
  - intros ev y Hy. rewrite done_evs in Hy. destruct (Nat.eqb_spec ev (pown r)) as [Z|]; [injection Hy as <-; right; intros g [= X]; exact (Hv g X)|]. destruct (l_evs' _ _ _ _ E ev y Hy) as [Z|Z]; [left; exists y; auto|right; exact Z].
  - intros i x Hi Hi0. rewrite done_prs in Hi. destruct (Nat.eqb_spec i p) as [->|]; congruence.
  - assert (Hh : forall q, In q (heap S3) -> ~ In q (heap S) -> qev q = pown r \/ qev q = pact S).
    { intros q Hq Hq0. change (In q (heap S1 ++ [MkQ (now S1 + 0) NORMAL (eid S1) (pown r)])) in Hq. apply in_app_or in Hq. destruct Hq as [Hq|[<-|[]]]; [right; exact (l_heap _ _ _ _ E q Hq Hq0)|left; reflexivity]. }
    intros q Hq Hq0. destruct (q_pact _ _ Q3) as (y & Hy & Ry). change (pact S3) with (pact S1) in Hy. rewrite (l_pact _ _ _ _ E) in Hy. split.
    + intros i (z & Hz & Rz). destruct (Hh q Hq Hq0) as [Y|Y]; rewrite Y in Hz; [rewrite done_evs, Nat.eqb_refl in Hz; injection Hz as <-; cbn in Rz; congruence|congruence].
    + intros j Hm. destruct (Hh q Hq Hq0) as [Y|Y]; rewrite Y in Hm.
      * rewrite <- (l_acts _ _ _ _ E) in Hm. destruct (q_acts _ _ Q3 j _ Hm) as (z & Hz & Rz). rewrite done_evs, Nat.eqb_refl in Hz. injection Hz as <-. cbn in Rz. congruence.
      * exact (q_apart _ _ Q j Hm).
Qed.
End Done.
End Rests.

(** Nobody else has work left at this moment. *)
Lemma Fires_start p r S : Inv S -> Que (Some p) S -> Gen (Some (1, None)) (Some p) S -> proc_at p S = Some r -> leads_ (pcode r) -> NoHits S -> NoBaby S -> (forall i x n, proc_at i S = Some x -> pcode x <> KExtra0 n) -> sprocs (ss S) = [PProc] -> Fires (Some p) S.
Proof.
  intros HI Q G Hp Hl Nh Nb N0 Ep.
  assert (Na : forall n ev q, dget (acts S) n = Some ev -> In q (heap S) -> qev q <> ev).
  { intros n ev q Hn Hq Eq. pose proof (g_acts _ _ _ G n ev q Hn Hq Eq) as R. destruct (q_acts _ _ Q n ev Hn) as (e & He & Re). rewrite <- Eq in He.
    assert (X : 1 < 1) by (apply R, (g_fresh _ _ _ G q e Hq He); rewrite Re; discriminate). lia. }
  assert (C0 : forall n, cnt n S = 0) by (intros n; unfold cnt, count; rewrite Ep; reflexivity).
  constructor; auto.
  - exists [], []. split; [exact Ep|]. intros x [].
  - intros n. rewrite C0. lia.
  - intros i x n Hi Ni Hb Hin. pose proof (g_load _ _ _ G i x Hi Ni) as Ld. unfold Load in Ld. destruct (pcode x) as [|f| |k|m|m|m pro|m pro|[|] m g|[|] m e0 g|g|pro g|e0|e0|] eqn:Ex; try contradiction; cbn in Hb; subst m; destruct Ld as [L1 L2]; [|contradiction].
    assert (Np : pro <> p) by (intros ->; exact (leader_alone S p r i x n HI Hp Hl Hi (or_introl Ex))).
    destruct (Soon_at (Some p) S i x n pro HI Q (or_intror (ex_intro _ _ G)) Hi Ex Ni ltac:(congruence) (L1 Hin)) as (q & e & Hq & Tq & He & [(y & Hy & Et & _ & D)|(Et & _)]).
    + destruct D as [(m & g & D)|(m & e0 & g & D & _)]; [exact (Nb pro y m g Hy D)|]. pose proof (g_load _ _ _ G pro y Hy ltac:(congruence)) as Ly. unfold Load in Ly. rewrite D in Ly. destruct Ly as (_ & k & _ & _ & R). specialize (R q Hq (eq_sym Et) Tq). lia.
    + destruct (L2 q Hq Et) as [R _]. specialize (R Tq). lia.
  - intros i x n Hi Ni Hc. destruct (atrig n S) eqn:At; [exfalso|reflexivity]. destruct (q_wait _ _ Q i x Hi Ni ltac:(congruence)) as (e & He & Ce & Ai). rewrite Hc in Ai. cbn in Ai. unfold atrig, trig, triggered in At. rewrite Ai, He in At.
    destruct (g_full _ _ _ G _ e He) as (q & Hq & Eq); [destruct (evalue e); discriminate|congruence|]. exact (Na n _ q Ai Hq Eq).
Qed.

Section Model.
Variables (O : oracle) (tie : string -> string -> bool) (t : Z) (s : st).
Hypothesis CO : compiles_with O tie.
Hypothesis H1 : one_request s.
Hypothesis H2 : plain_names s.
Hypothesis V : svars s = nobind.
Hypothesis Es : sprocs s = [].
Hypothesis Nd : NoDup (dkeys (snames s)).
Hypothesis SE : slow_eyes O.
Local Notation Turn := (Turn O t s).
Local Notation Fin := (Fin O).
Local Notation Quiet := (Quiet O).
Let turn_parts := turn_parts O tie t s CO H1 H2 V.
Let land_fail := land_fail O tie t s CO H1 H2 V.
Let land_park := land_park O tie t s CO H1 H2 V Es Nd.
Let land_done := land_done O tie t s CO H1 H2 V Es Nd.
Let land_move := land_move O tie t s CO H1 H2 V Es Nd.
Let turn_bad := turn_bad O t s.

(** ** The process of the rules *)

Lemma chief_code p r S : Inv S -> Que (Some p) S -> proc_at p S = Some r -> chief (pcode r) -> (exists r0, proc_at 0 S = Some r0 /\ mcode (pcode r0)) -> p <> 0.
Proof. intros _ _ Hp Hc (r0 & H0 & Hm) ->. assert (r0 = r) by congruence. subst. destruct (pcode r); contradiction. Qed.
(** It has been started. *)
Lemma chief_new p o w r r0 f S : Turn p o w r S -> proc_at 0 S = Some r0 -> pcode r0 = KProcPro f -> pown r = ptarget r0 -> pcode r = KLocal0 true PROCEDURAL (procedural O (seconds_of (now S))) ->
  NoBaby S -> NoHits S -> sprocs (ss S) = [] -> Gen (Some (2, None)) (Some p) S -> Fin S.
Proof.
  intros T P0 C0 Eo Hc Nb Nh Ep G. destruct (turn_parts _ _ _ _ _ T) as (HI & Mn & Q & Se & Ac). assert (Hp := t_proc _ _ _ _ _ _ _ _ T).
  assert (N0 : p <> 0) by (intros ->; assert (r0 = r) by congruence; subst; congruence).
  destruct o as [v|[x| |]]; [|exact (turn_bad _ _ _ _ _ T)|contradiction|rewrite Hc in Ac; contradiction].
  set (S0 := set_todo [WEnd w] S). assert (E0 : LPre p w S S0) by (apply LPre_same; auto). set (t0 := seconds_of (now S)) in *.
  set (s' := set_vars nobind (set_procs (sprocs (ss S) ++ [PProc]) (snext (ss S)) (ss S))). set (e := ev t0 PROCEDURAL WConflict).
  assert (Et : etime e = now S) by exact (roundtime_seconds (now S)).
  assert (Hg : go_on O p (pcode r) (Good v) S0 = (timed (etime e - now S0) (set_ss s' S0), inl (NWait (KLocal true PROCEDURAL e (conflict O t0)) (List.length (evs S0))))).
  { rewrite Hc. cbn [go_on]. unfold local_next. change (resume (procedural O t0) (ss S0)) with (s', @nil string, OYield e (conflict O t0)). cbv beta iota zeta. unfold bind. rewrite timeout_eq. change (now (set_ss s' S0)) with (now S). change (now S0) with (now S). rewrite Et, Z.sub_diag. reflexivity. }
  set (c := KLocal true PROCEDURAL e (conflict O t0)) in *. set (dd := (etime e - now S0)%Z) in *.
  apply (land_park p (Good v) w r S T _ _ _ _ Hg eq_refl (wait_at S0 s' dd) eq_refl). intros HI3 Q3.
  set (S3 := parked p r c _ _ _) in *. pose proof (wait_lead p w r S S0 s' Hp Q E0 c dd Q3) as A. fold S3 in A. set (r3 := MkPrc (pkind r) (pown r) (List.length (evs S0)) c) in *.
  set (q := MkQ (now S0 + dd) NORMAL (eid S0) (List.length (evs S0))). assert (Hq : In q (heap S3)) by exact (wait_entry p r S0 s' c dd).
  assert (D0 : dd = 0%Z) by (unfold dd; change (now S0) with (now S); lia).
  exists (SConf q). cbn [lim Kind]. split; [|split; [|split]].
  - apply (lead_gen p r r3 S S3 A Q (Some (1, Some q)) HI HI3 Q3); auto.
    + apply (Gen_limit (Some (2, None)) _ _ _ HI Q G); [|left; exact Nb]. intros x k Hx Px Hk R Tx. specialize (R Tx). destruct (q_heap _ _ Q x Hx) as (Ix & _). change (qid q) with (eid S). lia.
    + right. rewrite Hc. exact I.
    + exact I.
    + intros pr Hpr. change (In pr (sprocs (ss S) ++ [PProc])) in Hpr. rewrite Ep in Hpr. destruct Hpr as [<-|[]]. left. reflexivity.
  - exists r0. split; [apply (v_prs _ _ _ (d_mv _ _ _ _ _ A)); auto|]. exists f, p, r3. split; [exact C0|]. split; [exact (d_p' _ _ _ _ _ A)|]. split; [exact Eo|]. split; [exists PROCEDURAL, e; reflexivity|].
    split; [|reflexivity]. split; [exact Hq|]. split; [reflexivity|]. cbn. rewrite D0. change (now S3) with (now S). lia.
  - exact (lead_NoHits p r r3 S S3 A Q Nh).
  - change (sprocs (ss S) ++ [PProc] = [PProc]). rewrite Ep. reflexivity.
Qed.
(** It goes on. *)
Lemma chief_go p v w r n e g S : Turn p (Good v) w r S -> pcode r = KLocal true n e g -> exists S2, LPre p w S S2 /\ go_on O p (pcode r) (Good v) (set_todo [WEnd w] S) = local_next true n g S2 /\ etime e = now S.
Proof.
  intros T X. destruct (turn_parts _ _ _ _ _ T) as (HI & Mn & Q & Se & Ac). set (S0 := set_todo [WEnd w] S). assert (E0 : LPre p w S S0) by (apply LPre_same; auto).
  set (S1 := set_log (log S0 ++ [(now S0, e)]) S0). assert (E1 : LPre p w S S1) by (apply LPre_same; auto). pose proof (l_que _ _ _ _ E1) as Q1.
  destruct (activate_eq e S1 (or_intror (ex_intro _ p Q1))) as (S2 & E2 & D2). exists S2.
  assert (En : hasenv S2 = false) by (pose proof (o_env _ (t_ok _ _ _ _ _ _ _ _ T)) as Y; destruct D2 as [->|(x & _ & _ & ->)]; exact Y).
  split; [destruct D2 as [->|(x & Hx & Vx & ->)]; [exact E1|apply LPre_fired; auto]|]. split.
  - rewrite X. cbn [go_on]. unfold note, bind at 1, upd_. fold S1. unfold bind at 1. rewrite E2. unfold bind, interact, bind, get, ret. rewrite En. reflexivity.
  - symmetry. apply (i_due _ HI p r v (etime e) (t_proc _ _ _ _ _ _ _ _ T)); [rewrite (t_todo _ _ _ _ _ _ _ _ T); left; reflexivity|rewrite X; reflexivity].
Qed.
(** It yields an event. *)
Lemma chief_wait p v w r n e g S S2 s' d dd x h : Turn p (Good v) w r S -> pcode r = KLocal true n e g -> LPre p w S S2 -> go_on O p (pcode r) (Good v) (set_todo [WEnd w] S) = local_next true n g S2 ->
  resume g (ss S) = (s', x, OYield dd h) -> ((now S <= etime dd)%Z -> Gen (lim d) (Some p) S) ->
  (forall pr, In pr (sprocs s') -> pr = PProc \/ exists id n m i c bs t, pr = PReq id n m i c bs t /\ queues m = true /\ id < snext s') -> snext (ss S) <= snext s' ->
  ((now S <= etime dd)%Z -> forall r3 S3, Lead p r r3 S S3 -> Inv S3 -> Que (Some p) S -> pcode r3 = KLocal true n dd h -> ss S3 = s' -> now S3 = now S -> (etime dd = now S -> exists q, at_hand r3 S3 q) -> Post O d S3 /\ Kind None None d S3) -> Fin S.
Proof.
  intros T Hc E Hg R G Hs Hn Hd. destruct (turn_parts _ _ _ _ _ T) as (HI & Mn & Q & Se & Ac). assert (Hp := t_proc _ _ _ _ _ _ _ _ T).
  unfold local_next in Hg. rewrite (l_ss _ _ _ _ E), R in Hg. assert (N1 : now S2 = now S) by exact (v_now _ _ _ (l_mv _ _ _ _ E)).
  unfold bind in Hg. rewrite timeout_eq in Hg. change (now (set_ss s' S2)) with (now S2) in Hg. destruct (Z.ltb_spec (etime dd - now S2) 0) as [Lt|Ge]; [exact (land_fail p _ w r S T _ _ Hg)|].
  assert (Le : (now S <= etime dd)%Z) by lia. specialize (G Le). specialize (Hd Le).
  apply (land_park p (Good v) w r S T _ _ _ _ Hg (l_todo _ _ _ _ E) (wait_at S2 s' (etime dd - now S2)) eq_refl). intros HI3 Q3.
  set (c := KLocal true n dd h) in *. set (S3 := parked p r c _ _ _) in *. pose proof (wait_lead p w r S S2 s' Hp Q E c _ Q3) as A. fold S3 in A. set (r3 := MkPrc (pkind r) (pown r) (List.length (evs S2)) c) in *.
  exists d. split.
  - apply (lead_gen p r r3 S S3 A Q (lim d) HI HI3 Q3); auto; [right; rewrite Hc; exact I|exact I].
  - apply (Hd r3 S3 A HI3 Q eq_refl eq_refl N1). intros Et. exists (MkQ (now S2 + (etime dd - now S2)) NORMAL (eid S2) (List.length (evs S2))). split; [exact (wait_entry p r S2 s' c _)|]. split; [reflexivity|]. cbn. change (now S3) with (now S2). lia.
Qed.
(** It ends. *)
Lemma chief_done p v w r n e g S S2 s' d x : Turn p (Good v) w r S -> pcode r = KLocal true n e g -> LPre p w S S2 -> go_on O p (pcode r) (Good v) (set_todo [WEnd w] S) = local_next true n g S2 ->
  resume g (ss S) = (s', x, ODone) -> Gen (lim d) (Some p) S ->
  (forall pr, In pr (sprocs s') -> pr = PProc \/ exists id n m i c bs t, pr = PReq id n m i c bs t /\ queues m = true /\ id < snext s') -> snext (ss S) <= snext s' ->
  (forall r3 S3, Lead p r r3 S S3 -> Inv S3 -> Que (Some p) S -> pcode r3 = KEnd -> ss S3 = s' -> now S3 = now S -> (exists q, In q (heap S3) /\ qev q = pown r /\ qtime q = now S3) -> Post O d S3 /\ Kind None None d S3) -> Fin S.
Proof.
  intros T Hc E Hg R G Hs Hn Hd. destruct (turn_parts _ _ _ _ _ T) as (HI & Mn & Q & Se & Ac). assert (Hp := t_proc _ _ _ _ _ _ _ _ T).
  unfold local_next in Hg. rewrite (l_ss _ _ _ _ E), R in Hg. assert (N1 : now S2 = now S) by exact (v_now _ _ _ (l_mv _ _ _ _ E)).
  apply (land_done p (Good v) w r S T _ _ Hg (l_todo _ _ _ _ E)). intros eo He Ro Ve HI3 Q3.
  set (S3 := finished p r _ _ _) in *. pose proof (done_lead p w r S S2 s' Hp Q E eo XProcs He Ro Ve ltac:(discriminate) Q3) as A. fold S3 in A. set (r3 := MkPrc (pkind r) (pown r) (ptarget r) KEnd) in *.
  exists d. split.
  - apply (lead_gen p r r3 S S3 A Q (lim d) HI HI3 Q3); auto; [right; rewrite Hc; exact I|exact I].
  - apply (Hd r3 S3 A HI3 Q eq_refl eq_refl N1). exists (MkQ (now S2 + 0) NORMAL (eid S2) (pown r)). split; [exact (done_entry p r S2 s' eo XProcs)|]. split; [reflexivity|]. cbn. lia.
Qed.
Lemma Gen_none L a S : Inv S -> Que a S -> Gen L a S -> Gen None a S.
Proof. intros HI Q G. apply (Gen_limit L None a S HI Q G); [intros; exact I|right; intros; exact I]. Qed.
(** It chooses. *)
Lemma chief_conf p o w r r0 f n e S : Turn p o w r S -> proc_at 0 S = Some r0 -> pcode r0 = KProcPro f -> pown r = ptarget r0 -> pcode r = KLocal true n e (conflict O (seconds_of (now S))) ->
  NoBaby S -> NoHits S -> NoCont S -> (forall i x n, proc_at i S = Some x -> pcode x <> KExtra0 n) -> svars (ss S) = nobind -> sprocs (ss S) = [PProc] -> Gen (Some (1, None)) (Some p) S -> Fin S.
Proof.
  intros T P0 C0 Eo Hc Nb Nh Nc Nx Vn Ep G. destruct (turn_parts _ _ _ _ _ T) as (HI & Mn & Q & Se & Ac). assert (Hp := t_proc _ _ _ _ _ _ _ _ T).
  assert (N0 : p <> 0) by (intros ->; assert (r0 = r) by congruence; subst; congruence).
  destruct o as [v|[x| |]]; [|exact (turn_bad _ _ _ _ _ T)|contradiction|rewrite Hc in Ac; contradiction].
  destruct (chief_go p v w r n e _ S T Hc) as (S2 & E & Hg & Et). set (t0 := seconds_of (now S)) in *. assert (Rt : roundtime t0 = now S) by exact (roundtime_seconds (now S)).
  assert (L0 : leads_ (pcode r)) by (right; rewrite Hc; exact I).
  set (s1 := set_extra [] (set_cur (scur (ss S)) (scur (ss S)) (ss S))).
  assert (Rs : forall k, conflict O t0 = GAct (fun s => set_extra [] (set_cur (scur s) (scur s) s)) (GGet k) -> resume (conflict O t0) (ss S) = resume (k s1) s1) by (intros k ->; cbn [resume]; fold s1; destruct (resume (k s1) s1) as [[? ?] ?]; reflexivity).
  specialize (Rs _ eq_refl). cbv beta in Rs.
  destruct (select O s1) as [[rl|]|x] eqn:Sl.
  - apply (chief_wait p v w r n e (conflict O t0) S S2 (use_rule rl t0 (set_rule (Some rl) s1)) SFire (ev t0 PROCEDURAL (WSelected rl)) [] _ T Hc E Hg ltac:(rewrite Rs; reflexivity)); auto.
    + intros _. exact (Gen_none _ _ _ HI Q G).
    + intros pr Hpr. change (In pr (sprocs (ss S))) in Hpr. exact (g_list _ _ _ G pr Hpr).
    + intros _ r3 S3 A HI3 _ C3 E3 N3 _. pose proof (Fires_start p r S HI Q G Hp L0 Nh Nb Nx Ep) as F.
      assert (Ep3 : sprocs (ss S3) = [PProc]) by (rewrite E3; exact Ep). assert (Ct : forall m, cnt m S3 = 0) by (intros m; unfold cnt, count; rewrite Ep3; reflexivity).
      split.
      * exists r0. split; [apply (v_prs _ _ _ (d_mv _ _ _ _ _ A)); auto|]. exists f, p, r3. split; [exact C0|]. split; [exact (d_p' _ _ _ _ _ A)|]. split; [rewrite (d_own _ _ _ _ _ A); exact Eo|]. eexists n, _, _. split; [exact C3|]. split.
        -- intros s2. cbn [firing]. right. intros s3. apply firing_try.
        -- rewrite Hc in Ac. cbn [Act] in Ac. destruct Ac as (c & b & F1 & F2 & F3).
           destruct (resume_modest _ c b (ss S) _ _ _ (F2 _ Mn F1) F1 ltac:(rewrite Rs; reflexivity)) as (c' & b' & C' & _ & Ho). exists c', b'. rewrite E3. split; [exact C'|]. split; [exact Ho|]. intros m. rewrite Ct. split; [lia|reflexivity].
      * cbn [Kind]. apply (lead_Fires p r r3 S S3 A Q F).
        -- left. right. rewrite C3. exact I.
        -- exists [], []. split; [exact Ep3|]. intros x [].
        -- intros m. rewrite Ct. lia.
  - change (sprocs s1) with (sprocs (ss S)) in Rs. rewrite Ep in Rs. cbn [remove_procedural] in Rs.
    apply (chief_wait p v w r n e (conflict O t0) S S2 (set_procs [] (snext s1) (set_rule (last (map Some (sorder s1)) None) s1)) SNone (ev t0 PROCEDURAL WNoRule) [] GRet T Hc E Hg ltac:(rewrite Rs; reflexivity)); auto.
    + intros pr [].
    + intros _ r3 S3 A HI3 _ C3 E3 N3 Hh. split.
      * exists r0. split; [apply (v_prs _ _ _ (d_mv _ _ _ _ _ A)); auto|]. exists f, p, r3. split; [exact C0|]. split; [exact (d_p' _ _ _ _ _ A)|]. split; [rewrite (d_own _ _ _ _ _ A); exact Eo|]. split; [eexists n, _; exact C3|]. split; [|apply Hh; exact Rt].
        split; [left; rewrite E3; apply (NoMatch_same s1); try reflexivity; apply (select_NoMatch O s1); [exact Vn|exact Sl]|].
        split; [apply (lead_NoBaby p r r3 S S3 A Nb)|apply (lead_NoCont p r r3 S S3 A HI3 Nc)]; left; right; rewrite C3; exact I.
      * split; [exact (lead_NoHits p r r3 S S3 A Q Nh)|]. rewrite E3. reflexivity.
  - unfold local_next in Hg. rewrite (l_ss _ _ _ _ E), Rs in Hg. exact (land_fail p _ w r S T _ _ Hg).
Qed.
(** There is no rule. *)
Lemma chief_none p o w r r0 f n e S : Turn p o w r S -> proc_at 0 S = Some r0 -> pcode r0 = KProcPro f -> pown r = ptarget r0 -> pcode r = KLocal true n e GRet ->
  Idle S -> NoHits S -> sprocs (ss S) = [] -> Gen (Some (1, None)) (Some p) S -> Fin S.
Proof.
  intros T P0 C0 Eo Hc Id Nh Ep G. destruct (turn_parts _ _ _ _ _ T) as (HI & Mn & Q & Se & Ac). assert (Hp := t_proc _ _ _ _ _ _ _ _ T).
  assert (N0 : p <> 0) by (intros ->; assert (r0 = r) by congruence; subst; congruence).
  destruct o as [v|[x| |]]; [|exact (turn_bad _ _ _ _ _ T)|contradiction|rewrite Hc in Ac; contradiction].
  destruct (chief_go p v w r n e _ S T Hc) as (S2 & E & Hg & Et). assert (L0 : leads_ (pcode r)) by (right; rewrite Hc; exact I).
  apply (chief_done p v w r n e GRet S S2 (ss S) SDone [] T Hc E Hg eq_refl); auto.
  - exact (g_list _ _ _ G).
  - intros r3 S3 A HI3 _ C3 E3 N3 (q & I1 & I2 & I3). split.
    + exists r0. split; [apply (v_prs _ _ _ (d_mv _ _ _ _ _ A)); auto|]. exists f, p, r3. split; [exact C0|]. split; [exact (d_p' _ _ _ _ _ A)|]. split; [rewrite (d_own _ _ _ _ _ A); exact Eo|]. split; [exact C3|]. split.
      * apply (lead_Idle p r r3 S S3 A HI3 Id L0 (or_intror C3)). rewrite E3. auto.
      * exists q. split; [exact I1|]. split; [congruence|exact I3].
    + split; [exact (lead_NoHits p r r3 S S3 A Q Nh)|]. rewrite E3. exact Ep.
Qed.
(** It fires a rule. *)
Lemma chief_fire p o w r r0 f n e g S : Turn p o w r S -> proc_at 0 S = Some r0 -> pcode r0 = KProcPro f -> pown r = ptarget r0 -> pcode r = KLocal true n e g ->
  (forall s2, firing (etime e) g s2) -> flows S g -> Fires (Some p) S -> Gen None (Some p) S -> Fin S.
Proof.
  intros T P0 C0 Eo Hc Hf Fl F G. destruct (turn_parts _ _ _ _ _ T) as (HI & Mn & Q & Se & Ac). assert (Hp := t_proc _ _ _ _ _ _ _ _ T).
  assert (N0 : p <> 0) by (intros ->; assert (r0 = r) by congruence; subst; congruence).
  destruct o as [v|[x| |]]; [|exact (turn_bad _ _ _ _ _ T)|contradiction|rewrite Hc in Ac; contradiction].
  destruct (chief_go p v w r n e _ S T Hc) as (S2 & E & Hg & Et). assert (L0 : leads_ (pcode r)) by (right; rewrite Hc; exact I).
  destruct (resume g (ss S)) as [[s' ns] oo] eqn:R. destruct (resume_firing g (etime e) (ss S) s' ns oo (Hf _) R) as [(An & As & new & Ap & Aq) Ho]. rewrite Et in Ho, Aq.
  destruct Fl as (c & b & F1 & F2 & F3). destruct (resume_modest g c b (ss S) s' ns oo (F2 _ Mn F1) F1 R) as (c' & b' & C' & (nw & Ew & Nw & Nb & Nb') & Hm).
  assert (Ct : forall m, count m (sprocs s') = cnt m S + count_occ string_dec nw m) by (intros m; unfold cnt, count; rewrite Ew; apply count_occ_app).
  assert (Tt : forall m, count m (sprocs s') <= 1 /\ (b' m -> count m (sprocs s') = 0)).
  { intros m. destruct (F3 m) as [B1 B2]. rewrite Ct. destruct (in_dec string_dec m nw) as [I|I].
    - rewrite (B2 (Nb m I)). split; [pose proof (proj1 (NoDup_count_occ string_dec nw) Nw m); lia|]. intros Bm. elim (proj2 (Nb' m Bm) I).
    - rewrite (proj1 (count_occ_not_In string_dec nw m) I). split; [lia|]. intros Bm. rewrite (B2 (proj1 (Nb' m Bm))). reflexivity. }
  assert (Li : forall pr, In pr (sprocs s') -> pr = PProc \/ exists id n m i c bs t, pr = PReq id n m i c bs t /\ queues m = true /\ id < snext s').
  { intros pr Hpr. rewrite Ap in Hpr. apply in_app_or in Hpr. destruct Hpr as [Hpr|Hpr].
    - destruct (g_list _ _ _ G pr Hpr) as [X|(id & m & me & i & cc & bs & tt & X1 & X2 & X3)]; [left; exact X|right]. exists id, m, me, i, cc, bs, tt. split; [exact X1|]. split; [exact X2|lia].
    - right. destruct (Aq pr Hpr) as (id & m & me & i & cc & bs & tt & X1 & X2 & X3 & _). exists id, m, me, i, cc, bs, tt. split; [exact X1|]. split; [exact X2|apply X3]. }
  assert (Kd : forall r3 S3, Lead p r r3 S S3 -> leads_ (pcode r3) \/ pcode r3 = KEnd -> ss S3 = s' -> now S3 = now S -> Fires None S3).
  { intros r3 S3 A C3 E3 N3. apply (lead_Fires p r r3 S S3 A Q F C3); [|intros m; unfold cnt; rewrite E3; apply Tt].
    destruct (f_crew _ _ F) as (l1 & l2 & W1 & W2). exists l1, (l2 ++ new). rewrite E3, Ap, W1, <- app_assoc. split; [reflexivity|]. intros x Hx. rewrite app_assoc in Hx. apply in_app_or in Hx. destruct Hx as [Hx|Hx].
    - destruct (W2 x Hx) as (id & m & me & i & cc & bs & tt & X1 & X2 & X3). exists id, m, me, i, cc, bs, tt. rewrite (d_inter _ _ _ _ _ A), N3. auto.
    - destruct (Aq x Hx) as (id & m & me & i & cc & bs & tt & X1 & X2 & X3 & _ & X4). exists id, m, me, i, cc, bs, tt. rewrite (d_inter _ _ _ _ _ A), N3. split; [exact X1|]. split; [|exact X4].
      intros X. pose proof (g_inter _ _ _ G m id X). lia. }
  destruct oo as [|x|e' h|h].
  - apply (chief_done p v w r n e g S S2 s' SOver ns T Hc E Hg R); auto.
    intros r3 S3 A HI3 _ C3 E3 N3 _. split; [|exact (Kd r3 S3 A (or_intror C3) E3 N3)].
    exists r0. split; [apply (v_prs _ _ _ (d_mv _ _ _ _ _ A)); auto|]. exists f, p, r3. split; [exact C0|]. split; [exact (d_p' _ _ _ _ _ A)|]. split; [rewrite (d_own _ _ _ _ _ A); exact Eo|]. exact C3.
  - unfold local_next in Hg. rewrite (l_ss _ _ _ _ E), R in Hg. exact (land_fail p _ w r S T _ _ Hg).
  - apply (chief_wait p v w r n e g S S2 s' SFire e' ns h T Hc E Hg R); auto.
    intros Le r3 S3 A HI3 _ C3 E3 N3 _. split; [|apply (Kd r3 S3 A); auto; left; right; rewrite C3; exact I].
    exists r0. split; [apply (v_prs _ _ _ (d_mv _ _ _ _ _ A)); auto|]. exists f, p, r3. split; [exact C0|]. split; [exact (d_p' _ _ _ _ _ A)|]. split; [rewrite (d_own _ _ _ _ _ A); exact Eo|]. exists n, e', h. split; [exact C3|]. split.
    + destruct Ho as [Ho|Ho]; [lia|exact Ho].
    + exists c', b'. rewrite E3. split; [exact C'|]. split; [exact Hm|]. intros m. unfold cnt. rewrite E3. apply Tt.
  - contradiction.
Qed.

(** ** The process that calls the rules *)

(** It starts the rules. *)
Lemma main_spawn o w r f S : Turn 0 o w r S -> (match pcode r with KProc0 => f = true | KProcZero 0 => f = false | _ => False end) -> NoBaby S -> NoHits S -> sprocs (ss S) = [] -> Gen (Some (2, None)) (Some 0) S -> Fin S.
Proof.
  intros T Hk Nb Nh Ep G. destruct (turn_parts _ _ _ _ _ T) as (HI & Mn & Q & Se & Ac). assert (Hp := t_proc _ _ _ _ _ _ _ _ T).
  destruct o as [v|[x| |]]; [|exact (turn_bad _ _ _ _ _ T)|contradiction|destruct (pcode r) as [| | |[|k]| | | | | | | | | | |]; contradiction].
  assert (L0 : leads_ (pcode r)) by (left; destruct (pcode r) as [| | |[|k]| | | | | | | | | | |]; try contradiction; exact I).
  set (S0 := set_todo [WEnd w] S). pose proof (go_rules O (pcode r) f S0 Hk v) as Hg. set (c := KLocal0 true PROCEDURAL (procedural O (seconds_of (now S0)))) in *. set (ob := List.length (evs S0)) in *.
  set (e3 := MkEvt (ROwn (List.length (prs S0))) None false (Some [])).
  assert (He : event_at ob (spawned c S0) = Some e3) by (rewrite at_spawned; fold ob; rewrite Nat.eqb_refl; destruct (Nat.eqb_spec ob (Datatypes.S ob)); [lia|reflexivity]).
  assert (Hr2 : proc_at 0 (spawned c S0) = Some r) by (apply pat_spawned_old; exact Hp).
  apply (land_park 0 (Good v) w r S T _ _ _ e3 Hg eq_refl He eq_refl). intros HI3 Q3. set (S3 := parked 0 r (KProcPro f) ob e3 (spawned c S0)) in *. set (r3 := MkPrc (pkind r) (pown r) ob (KProcPro f)).
  assert (L : 0 < List.length (prs S0)) by exact (pat_old _ _ _ Hp).
  set (pro := List.length (prs S0)) in *. set (rn := MkPrc (kind_of c) ob (Datatypes.S ob) c).
  assert (Hp3 : forall i, proc_at i S3 = if Nat.eqb i 0 then Some r3 else if Nat.eqb i pro then Some rn else proc_at i S) by (intros i; unfold S3; rewrite (pat_parked 0 r (KProcPro f) ob e3 _ Hr2), pat_spawned; reflexivity).
  assert (Ev : forall ev, event_at ev S3 = if Nat.eqb ev ob then Some (MkEvt (ROwn pro) None false (Some [CResume 0])) else if Nat.eqb ev (Datatypes.S ob) then Some (MkEvt (RInit pro) (Some (Good XUnit)) false (Some [CResume pro])) else event_at ev S).
  { intros ev. unfold S3. rewrite (at_parked 0 r (KProcPro f) ob e3 _ He), at_spawned. fold ob. destruct (Nat.eqb ev ob); reflexivity. }
  assert (Hh : heap S3 = heap S ++ [MkQ (now S0 + 0) URGENT (eid S0) (Datatypes.S ob)]) by reflexivity.
  assert (A : Lead 0 r r3 S S3).
  { constructor; auto.
    - eapply Mv_trans; [apply (Mv_same 0 S S0); reflexivity|]. eapply Mv_trans; [apply (Mv_spawned 0 c)|]. apply Mv_parked; auto.
    - rewrite Hp3. reflexivity.
    - intros n. unfold atrig. change (acts S3) with (acts S). destruct (dget (acts S) n) as [ev|] eqn:En; [|reflexivity]. destruct (q_acts _ _ Q n ev En) as (y & Hy & _). pose proof (at_old _ _ _ Hy) as Lo. change (List.length (evs S)) with ob in Lo. unfold trig. rewrite Ev.
      destruct (Nat.eqb_spec ev ob); [lia|]. destruct (Nat.eqb_spec ev (Datatypes.S ob)); [lia|reflexivity].
    - intros ev e' He'. rewrite Ev in He'. destruct (Nat.eqb ev ob); [injection He' as <-; right; discriminate|]. destruct (Nat.eqb ev (Datatypes.S ob)); [injection He' as <-; right; discriminate|]. left. exists e'. auto.
    - intros i x Hi Hi0. rewrite Hp3 in Hi. destruct (Nat.eqb_spec i 0) as [->|]; [congruence|]. destruct (Nat.eqb i pro); [injection Hi as <-; eexists _, _; reflexivity|congruence].
    - intros q Hq Hq0. rewrite Hh in Hq. apply in_app_or in Hq. destruct Hq as [Hq|[<-|[]]]; [contradiction|]. cbn [qev]. split.
      + intros i (z & Hz & Rz). rewrite Ev in Hz. destruct (Nat.eqb_spec (Datatypes.S ob) ob); [lia|]. rewrite Nat.eqb_refl in Hz. injection Hz as <-. discriminate.
      + intros m Hm. destruct (q_acts _ _ Q m _ Hm) as (y & Hy & _). pose proof (at_old _ _ _ Hy) as Lo. change (List.length (evs S)) with ob in Lo. lia. }
  exists SNew. cbn [lim Kind]. split; [|split; [|split]].
  - apply (lead_gen 0 r r3 S S3 A Q (Some (2, None)) HI HI3 Q3); auto; [exact I|]. exact (g_list _ _ _ G).
  - exists r3. split; [exact (d_p' _ _ _ _ _ A)|]. exists f, pro, rn. split; [reflexivity|]. split; [rewrite Hp3; destruct (Nat.eqb_spec pro 0); [lia|]; rewrite Nat.eqb_refl; reflexivity|]. split; [reflexivity|]. split; [reflexivity|].
    split; [apply (lead_NoBaby 0 r r3 S S3 A Nb); left; left; exact I|]. exists (MkQ (now S0 + 0) URGENT (eid S0) (Datatypes.S ob)). split; [rewrite Hh; apply in_or_app; right; left; reflexivity|]. split; [reflexivity|]. cbn. lia.
  - exact (lead_NoHits 0 r r3 S S3 A Q Nh).
  - exact Ep.
Qed.
(** It waits while others go on. *)
Lemma set_ss_same S : set_ss (ss S) S = S.
Proof. destruct S. reflexivity. Qed.
Lemma main_zero k o w r S : Turn 0 o w r S -> leads_ (pcode r) -> go_on O 0 (pcode r) o (set_todo [WEnd w] S) = zero k (set_todo [WEnd w] S) ->
  Gen (Some (k + 2, Some (MkQ (now S + 0) NORMAL (eid S) (List.length (evs S))))) (Some 0) S -> k <= 4 ->
  (forall r3 S3, Lead 0 r r3 S S3 -> ss S3 = ss S -> Kind None None (SZero k (MkQ (now S + 0) NORMAL (eid S) (List.length (evs S)))) S3) -> Fin S.
Proof.
  intros T L0 Hg G Lk Hd. destruct (turn_parts _ _ _ _ _ T) as (HI & Mn & Q & Se & Ac). assert (Hp := t_proc _ _ _ _ _ _ _ _ T).
  set (S0 := set_todo [WEnd w] S) in *. assert (E0 : LPre 0 w S S0) by (apply LPre_same; auto). unfold zero, bind in Hg. rewrite timeout_eq in Hg. change (Z.ltb 0 0) with false in Hg. cbv iota beta in Hg. unfold ret in Hg.
  rewrite <- (set_ss_same S0) in Hg at 2.
  apply (land_park 0 o w r S T _ _ _ _ Hg eq_refl (wait_at S0 (ss S0) 0) eq_refl). intros HI3 Q3. set (c := KProcZero k) in *. set (S3 := parked 0 r c _ _ _) in *.
  pose proof (wait_lead 0 w r S S0 (ss S0) Hp Q E0 c 0 Q3) as A. fold S3 in A. set (r3 := MkPrc (pkind r) (pown r) (List.length (evs S0)) c) in *. set (q := MkQ (now S + 0) NORMAL (eid S) (List.length (evs S))) in *.
  exists (SZero k q). split; [|split; [|exact (Hd r3 S3 A eq_refl)]].
  - apply (lead_gen 0 r r3 S S3 A Q _ HI HI3 Q3 G); auto; [exact I|]. exact (g_list _ _ _ G).
  - exists r3. split; [exact (d_p' _ _ _ _ _ A)|]. split; [reflexivity|]. split; [exact Lk|]. split; [exact (wait_entry 0 r S0 (ss S0) c 0)|]. split; [reflexivity|]. cbn. change (now S3) with (now S). lia.
Qed.
(** It has been called. *)
Lemma main_act o w r S : Turn 0 o w r S -> pcode r = KProcAct -> sprocs (ss S) = [] -> Gen None (Some 0) S -> Fin S.
Proof.
  intros T Hc Ep G. destruct (turn_parts _ _ _ _ _ T) as (HI & Mn & Q & Se & Ac).
  destruct o as [v|[x| |]]; [|exact (turn_bad _ _ _ _ _ T)|contradiction|rewrite Hc in Ac; contradiction].
  apply (main_zero 4 (Good v) w r S T); auto.
  - left. rewrite Hc. exact I.
  - rewrite Hc. reflexivity.
  - apply (Gen_limit None _ _ _ HI Q G); [|right]; intros x k Hx Px Hk _ Tx; [|lia]. destruct (q_heap _ _ Q x Hx) as (Ix & _). cbn [qid]. lia.
  - intros r3 S3 A E3. cbn [Kind Nat.eqb]. constructor; [intros n; unfold cnt, count; rewrite E3, Ep; cbn; lia|]. rewrite E3, Ep. intros x [].
Qed.
Lemma main_count k o w r S : Turn 0 o w r S -> pcode r = KProcZero (Datatypes.S k) -> Datatypes.S k <= 4 -> NoBaby S -> NoHits S -> sprocs (ss S) = [] -> Gen (Some (Datatypes.S k + 2, None)) (Some 0) S -> Fin S.
Proof.
  intros T Hc Lk Nb Nh Ep G. destruct (turn_parts _ _ _ _ _ T) as (HI & Mn & Q & Se & Ac).
  destruct o as [v|[x| |]]; [|exact (turn_bad _ _ _ _ _ T)|contradiction|rewrite Hc in Ac; contradiction].
  apply (main_zero k (Good v) w r S T); auto; [left; rewrite Hc; exact I|rewrite Hc; reflexivity| |lia|].
  - apply (Gen_limit (Some (Datatypes.S k + 2, None)) _ _ _ HI Q G); [|left; exact Nb]. intros x j Hx Px Hj R Tx. specialize (R Tx). destruct (q_heap _ _ Q x Hx) as (Ix & _). cbn [qid]. lia.
  - intros r3 S3 A E3. cbn [Kind]. destruct (Nat.eqb_spec k 4); [lia|]. split; [exact (lead_NoHits 0 r r3 S S3 A Q Nh)|]. rewrite E3. exact Ep.
Qed.
(** The rules have ended. *)
Record Opened (w : nat) (S S1 : sim) : Prop := MkOpened {
  z_mv : Mv 0 S S1;
  z_prs : prs S1 = prs S;
  z_inter : inter S1 = inter S;
  z_acts : acts S1 = acts S;
  z_ss : ss S1 = ss S;
  z_heap : heap S1 = heap S;
  z_early : early S1 = None;
  z_todo : todo S1 = [WEnd w];
  z_evs : forall ev e, event_at ev S = Some e -> event_at ev S1 = Some e;
  z_evs' : forall ev e, event_at ev S1 = Some e -> event_at ev S = Some e \/ e = act0;
  z_que : Que (Some 0) S1 }.
Lemma open_main v w r f S : Turn 0 (Good v) w r S -> pcode r = KProcPro f -> exists S1, go_on O 0 (pcode r) (Good v) (set_todo [WEnd w] S) = proc_loop 0 S1 /\ Opened w S S1.
Proof.
  intros T Hc. destruct (turn_parts _ _ _ _ _ T) as (HI & Mn & Q & Se & Ac). set (S0 := set_todo [WEnd w] S). set (S1 := set_early None S0).
  assert (Q1 : Que (Some 0) S1) by (apply (Que_same (Some 0) S); auto).
  destruct f.
  - exists S1. split; [rewrite Hc; reflexivity|]. constructor; auto. apply Mv_same; reflexivity.
  - set (S2 := set_pact (List.length (evs S1)) (added act0 S1)). exists S2. split; [rewrite Hc; reflexivity|].
    assert (Qa : Que (Some 0) (added act0 S1)) by (apply Que_added; auto).
    constructor; auto.
    + eapply Mv_trans; [apply (Mv_same 0 S S1); reflexivity|]. eapply Mv_trans; [apply (Mv_added 0 act0); [reflexivity|discriminate]|]. apply Mv_same; reflexivity.
    + intros ev e He. exact (at_added_old _ _ _ _ He).
    + intros ev e He. change (event_at ev (added act0 S1) = Some e) in He. rewrite at_added in He. destruct (Nat.eqb ev (List.length (evs S1))); [right; congruence|left; exact He].
    + apply Que_pact; [exact Qa|intros i x Hi Ni Hk; pose proof (q_who _ _ Qa i x Hi) as W; rewrite Hk in W; cbn in W; congruence|exists act0; split; [rewrite at_added, Nat.eqb_refl; reflexivity|reflexivity]|]. intros n Hn. destruct (q_acts _ _ Q1 n _ Hn) as (y & Hy & _). pose proof (at_old _ _ _ Hy). lia.
Qed.
Lemma open_atrig w S S1 : Que (Some 0) S -> Opened w S S1 -> forall n, atrig n S1 = atrig n S.
Proof.
  intros Q Z n. unfold atrig. rewrite (z_acts _ _ _ Z). destruct (dget (acts S) n) as [ev|] eqn:En; [|reflexivity]. destruct (q_acts _ _ Q n ev En) as (y & Hy & _). unfold trig. rewrite Hy, (z_evs _ _ _ Z _ _ Hy). reflexivity.
Qed.
Lemma open_lead w r r3 S S1 S3 : Que (Some 0) S -> proc_at 0 S = Some r -> Opened w S S1 -> Mv 0 S1 S3 -> proc_at 0 S3 = Some r3 -> pown r3 = pown r -> inter S3 = inter S1 -> acts S3 = acts S1 -> heap S3 = heap S1 -> (forall i x, proc_at i S3 = Some x -> proc_at i S1 <> None) ->
  (forall ev e', event_at ev S3 = Some e' -> exists e, event_at ev S1 = Some e /\ evalue e = evalue e') -> (forall ev e, event_at ev S1 = Some e -> exists e', event_at ev S3 = Some e') -> Lead 0 r r3 S S3.
Proof.
  intros Q Hp Z M Hp3 Eo Ei Ea Eh Hn Ev Ev'. constructor; auto.
  - exact (Mv_trans _ _ _ _ (z_mv _ _ _ Z) M).
  - rewrite Ei. apply Z.
  - rewrite Ea. apply Z.
  - intros n. rewrite <- (open_atrig w S S1 Q Z n). unfold atrig. rewrite Ea. destruct (dget (acts S1) n) as [ev|] eqn:En; [|reflexivity]. unfold trig. destruct (event_at ev S1) as [y|] eqn:Hy.
    + destruct (Ev' _ _ Hy) as (y' & Hy'). rewrite Hy'. destruct (Ev _ _ Hy') as (y2 & A & B). assert (y2 = y) by congruence. subst y2. unfold triggered. rewrite B. reflexivity.
    + destruct (event_at ev S3) as [y'|] eqn:Hy'; [|reflexivity]. destruct (Ev _ _ Hy') as (y2 & A & B). congruence.
  - intros ev e' He'. destruct (Ev _ _ He') as (e & He & Ve). destruct (z_evs' _ _ _ Z _ _ He) as [X| ->]; [left; exists e; auto|right; rewrite <- Ve; discriminate].
  - intros i x Hi Hi0. elim (Hn i x Hi). unfold proc_at in *. rewrite (z_prs _ _ _ Z). exact Hi0.
  - intros q Hq Hq0. rewrite Eh, (z_heap _ _ _ Z) in Hq. contradiction.
Qed.
(** There was none. *)
Lemma main_rest o w r f S : Turn 0 o w r S -> pcode r = KProcPro f -> Idle S -> NoHits S -> sprocs (ss S) = [] -> Gen (Some (1, None)) (Some 0) S -> Fin S.
Proof.
  intros T Hc Id Nh Ep G. destruct (turn_parts _ _ _ _ _ T) as (HI & Mn & Q & Se & Ac). assert (Hp := t_proc _ _ _ _ _ _ _ _ T).
  destruct o as [v|[x| |]]; [|exact (turn_bad _ _ _ _ _ T)|contradiction|rewrite Hc in Ac; contradiction].
  assert (L0 : leads_ (pcode r)) by (left; rewrite Hc; exact I). pose proof (Gen_none _ _ _ HI Q G) as Gn.
  destruct (open_main v w r f S T Hc) as (S1 & Hg & Z). pose proof (z_que _ _ _ Z) as Q1. unfold proc_loop, bind at 1, get at 1, get_started in Hg. rewrite (z_early _ _ _ Z), (z_ss _ _ _ Z), Ep in Hg. cbn [remove_procedural] in Hg. unfold ret in Hg.
  assert (Hp1 : proc_at 0 S1 = Some r) by (unfold proc_at; rewrite (z_prs _ _ _ Z); exact Hp).
  destruct (q_pact _ _ Q1) as (e & He & Re).
  destruct (q_cbs _ _ Q1 _ _ He) as [[Cb Ve]|[Cb|[(p & x & Cb & Np & Hx & Hk & Ht)|(p & Cb & Rp)]]]; [| | |congruence].
  - destruct (evalue e) as [o'|] eqn:Ev; [|contradiction]. apply (land_move 0 (Good v) w r S T S1 KProcAct (pact S1) e o' Hg (z_todo _ _ _ Z) He Cb Ev ltac:(discriminate)). intros S3 E3 T3.
    destruct (turn_parts _ _ _ _ _ T3) as (HI3 & _ & Q3 & _ & _). set (r3 := MkPrc (pkind r) (pown r) (ptarget r) KProcAct) in *.
    assert (Ev3 : forall ev, event_at ev S3 = if Nat.eqb ev (pact S1) then Some (match o' with Bad _ => MkEvt (erole e) (evalue e) true (ecbs e) | Good _ => e end) else event_at ev S1).
    { intros ev. rewrite E3. change (event_at ev (set_todo [WRun 0 o'; WEnd w] (defused (pact S1) e o' (moved 0 r KProcAct S1)))) with (event_at ev (defused (pact S1) e o' (moved 0 r KProcAct S1))). destruct o'; cbn [defused].
      - change (event_at ev (moved 0 r KProcAct S1)) with (event_at ev S1). destruct (Nat.eqb_spec ev (pact S1)) as [->|]; [exact He|reflexivity].
      - rewrite (at_changed ev (pact S1) _ e (moved 0 r KProcAct S1) He). reflexivity. }
    assert (A : Lead 0 r r3 S S3).
    { apply (open_lead w r r3 S S1 S3 Q Hp Z); try (rewrite E3; destruct o'; reflexivity); try reflexivity.
      - rewrite E3. eapply Mv_trans; [apply (Mv_prs 0 r r3 S1 Hp1)|]. apply (Mv_trans 0 _ (defused (pact S1) e o' (moved 0 r KProcAct S1))); [|apply Mv_same; reflexivity]. destruct o'; cbn [defused].
        + apply Mv_same; reflexivity.
        + apply (Mv_changed 0 (pact S1) e); [exact He|reflexivity|reflexivity|reflexivity].
      - exact (t_proc _ _ _ _ _ _ _ _ T3).
      - intros i x Hi. rewrite E3 in Hi. change (proc_at i (defused (pact S1) e o' (moved 0 r KProcAct S1)) = Some x) in Hi. rewrite (pat_moved 0 r KProcAct (pact S1) e o' S1 Hp1) in Hi. destruct (Nat.eqb_spec i 0) as [->|]; congruence.
      - intros ev y Hy. rewrite Ev3 in Hy. destruct (Nat.eqb_spec ev (pact S1)) as [->|]; [exists e; split; [exact He|]; injection Hy as <-; destruct o'; reflexivity|exists y; auto].
      - intros ev y Hy. rewrite Ev3. destruct (Nat.eqb ev (pact S1)); eauto. }
    apply (main_act o' w r3 S3 T3 eq_refl); [rewrite E3; destruct o'; change (sprocs (ss S1) = []); rewrite (z_ss _ _ _ Z); exact Ep|].
    assert (Es3 : ss S3 = ss S) by (rewrite <- (z_ss _ _ _ Z), E3; destruct o'; reflexivity).
    apply (lead_gen_ 0 r r3 S S3 A Q (Some 0) None HI HI3 Q3 Gn L0); [left; reflexivity|rewrite Es3; exact (g_list _ _ _ G)|rewrite Es3; lia].
  - apply (land_park 0 (Good v) w r S T _ _ _ e Hg (z_todo _ _ _ Z) He Cb). intros HI3 Q3. set (S3 := parked 0 r KProcAct (pact S1) e S1) in *. set (r3 := MkPrc (pkind r) (pown r) (pact S1) KProcAct).
    assert (Ev3 : forall ev, event_at ev S3 = if Nat.eqb ev (pact S1) then Some (MkEvt (erole e) (evalue e) (edefused e) (Some [CResume 0])) else event_at ev S1) by exact (at_parked 0 r KProcAct (pact S1) e S1 He).
    assert (Hp3 := pat_parked 0 r KProcAct (pact S1) e S1 Hp1). fold S3 in Hp3.
    assert (A : Lead 0 r r3 S S3).
    { apply (open_lead w r r3 S S1 S3 Q Hp Z); try reflexivity.
      - apply Mv_parked; auto.
      - rewrite Hp3. reflexivity.
      - intros i x Hi. rewrite Hp3 in Hi. destruct (Nat.eqb_spec i 0) as [->|]; congruence.
      - intros ev y Hy. rewrite Ev3 in Hy. destruct (Nat.eqb_spec ev (pact S1)) as [->|]; [exists e; split; [exact He|]; injection Hy as <-; reflexivity|exists y; auto].
      - intros ev y Hy. rewrite Ev3. destruct (Nat.eqb ev (pact S1)); eauto. }
    assert (Es3 : ss S3 = ss S) by exact (z_ss _ _ _ Z).
    exists SWait. split; [|split; [|split]].
    + apply (lead_gen 0 r r3 S S3 A Q None HI HI3 Q3 Gn L0); [exact I|rewrite Es3; exact (g_list _ _ _ G)|rewrite Es3; lia].
    + exists r3. split; [exact (d_p' _ _ _ _ _ A)|]. split; [reflexivity|]. intros _. apply (lead_Idle 0 r r3 S S3 A HI3 Id L0); [left; left; exact I|rewrite Es3; auto].
    + exact (lead_NoHits 0 r r3 S S3 A Q Nh).
    + rewrite Es3. exact Ep.
  - exfalso. destruct (q_wait _ _ Q1 p x Hx Np Hk) as (y & Hy & _ & Ai). rewrite Ht in Hy, Ai. assert (y = e) by congruence. subst y. pose proof (q_who _ _ Q1 p x Hx) as W.
    destruct (pcode x); cbn [aims who] in Ai, W; try contradiction; first [congruence|elim (q_apart _ _ Q1 _ Ai)|destruct Ai as [Ai _]; congruence|destruct Ai as (? & Ai); congruence].
Qed.
End Model.
