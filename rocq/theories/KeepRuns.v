(** A request in progress is carried out unless a new request to the same buffer comes. *)
From Coq Require Import Lia.
From Verif Require Import Base BaseFacts Chunks DecMem Buffers BufferFacts Productions ProdSpec Sim SimSpec SimFacts SerialFacts StoryFacts InterruptFacts Run RunSpec RunFacts KeepSpec KeepFacts.
Local Open Scope string_scope.
Local Open Scope list_scope.
Local Open Scope nat_scope.

(** ** Where the code of a process stops *)

(** The process that an extra process waits for is new. *)
Definition newp (m : M nxt) : Prop := forall S S' n pro ev, m S = (S', inl (NWait (KExtraPro n pro) ev)) -> List.length (prs S) <= pro.
Lemma np_bind {A} (m : M A) (k : A -> M nxt) : still m -> (forall a, newp (k a)) -> newp (bind m k).
Proof.
  intros Hm Hk S S' n pro ev. unfold bind. destruct (h_prs _ _ (Hm S)) as (new & H & _). destruct (m S) as [S1 [a|t]]; cbn [fst] in H; [|discriminate].
  intros E. apply Hk in E. rewrite H, app_length in E. lia.
Qed.
Lemma np_extra_loop O n : newp (extra_loop O n).
Proof.
  unfold extra_loop. apply np_bind; [apply still_get|intros S].
  assert (G : forall p l, newp (upd_ (put_started l) ;! (let! ev := act_of n in let! S := get in (if trig S ev then ret tt else succeed ev) ;!
              let! pro := spawn (KLocal0 false n (proc_gen O p)) in wait_for (KExtraPro n pro) pro))).
  { intros p l. apply np_bind; [apply still_put|intros _]. apply np_bind; [apply still_act_of|intros ev]. apply np_bind; [apply still_get|intros S1].
    apply np_bind; [destruct (trig S1 ev); [apply still_ret|apply still_succeed]|intros _]. intros S2 S' m pro ev'. unfold bind at 1. rewrite spawn_eq. unfold wait_for, bind, get, ret. intros [= _ _ <- _]. reflexivity. }
  destruct (take_proc n _) as [[p l]|]; [destruct p; [discriminate|apply G|apply G]|].
  apply np_bind; [apply still_upd; intros S1; constructor; auto; exists []; rewrite app_nil_r; auto|intros _]. apply np_bind; [apply still_act_of|intros ev]. discriminate.
Qed.
Lemma go_on_newp O p c o m : kind_of c = Some (GExtra m) -> newp (go_on O p c o).
Proof.
  intros H. destruct c; try discriminate; destruct o as [v|t]; cbn [go_on]; try (intros S S' n pro ev [=]; fail); try apply np_extra_loop.
  - apply np_bind; [apply still_new|intros ev]. apply np_bind; [apply still_upd; intros S1; constructor; auto; exists []; rewrite app_nil_r; auto|intros _]. apply np_extra_loop.
  - destruct v; try apply np_extra_loop. apply np_bind; [apply still_spawn; reflexivity|intros]. discriminate.
  - destruct t; try discriminate. apply np_bind; [apply still_get|intros S1]. apply np_bind; [|intros _; apply np_extra_loop].
    match goal with |- still (if ?b then _ else _) => destruct b end; [apply still_ret|apply still_interrupt].
  - destruct t; try discriminate. apply np_extra_loop.
Qed.

(** A process that waits for a time: the event is in the queue. *)
Definition queued (ev : nat) (S : sim) : Prop := (exists h, In h (heap S) /\ qev h = ev) /\ exists x, event_at ev S = Some x /\ ecbs x = Some [].
Definition timed (m : M nxt) : Prop := forall S S' c ev, m S = (S', inl (NWait c ev)) -> due c <> None -> queued ev S'.
Lemma ti_bind {A} (m : M A) (k : A -> M nxt) : (forall a, timed (k a)) -> timed (bind m k).
Proof. intros Hk S S' c ev. unfold bind. destruct (m S) as [S1 [a|t]]; [apply Hk|discriminate]. Qed.
Lemma ti_timeout d f : timed (let! ev := timeout d in ret (NWait (f ev) ev)).
Proof.
  intros S S' c ev. unfold timeout. destruct (Z.ltb d 0); [discriminate|]. unfold bind, get, mk_event, schedule, upd_, ret. intros [= <- _ <-] _. split.
  - eexists. split; [cbn [heap set_queue]; apply in_or_app; right; left; reflexivity|reflexivity].
  - eexists. split; [|]. unfold event_at. cbn [evs set_queue set_evs]. apply nth_snoc_new. reflexivity.
Qed.
Lemma ti_local_next b n g : timed (local_next b n g).
Proof.
  intros S S' c ev. unfold local_next. destruct (resume g (ss S)) as [[s' ns] o]. destruct o as [|x|e k|x]; try discriminate.
  intros E. exact (ti_timeout _ (fun _ => KLocal b n e k) _ _ _ _ E).
Qed.
Lemma ti_no m : (forall S S' c ev, m S = (S', inl (NWait c ev)) -> due c = None) -> timed m.
Proof. intros H S S' c ev E D. elim D. exact (H _ _ _ _ E). Qed.
Lemma go_on_timed O p c o : (exists b n, kind_of c = Some (GLocal b n)) \/ kind_of c = Some GEnvP -> timed (go_on O p c o).
Proof.
  intros H. destruct c; try (destruct H as [(b & m & H)|H]; discriminate); destruct o as [v|t]; cbn [go_on]; try (apply ti_no; discriminate).
  - apply ti_local_next.
  - apply ti_bind. intros _. apply ti_bind. intros _. apply ti_bind. intros _. apply ti_local_next.
  - apply ti_no. destruct t; discriminate.
  - apply ti_bind. intros S1. destruct (Z.ltb _ _); [apply ti_bind; intros _; apply ti_no; discriminate|]. apply (ti_timeout _ (fun _ => KEnvP e)).
  - apply ti_bind. intros _. apply ti_bind. intros _. apply ti_no. discriminate.
  - destruct t; (apply ti_bind; intros _; apply ti_no; discriminate).
Qed.

(** A generator does not start again. *)
Definition never0 (m : M nxt) : Prop := forall S S' b n g ev, m S <> (S', inl (NWait (KLocal0 b n g) ev)).
Lemma n0_bind {A} (m : M A) (k : A -> M nxt) : (forall a, never0 (k a)) -> never0 (bind m k).
Proof. intros Hk S S' b n g ev. unfold bind. destruct (m S) as [S1 [a|t]]; [apply Hk|discriminate]. Qed.
Lemma n0_local_next b n g : never0 (local_next b n g).
Proof.
  intros S S' b' n' g' ev. unfold local_next. destruct (resume g (ss S)) as [[s' ns] o]. destruct o as [|x|e k|x]; try discriminate.
  unfold bind. destruct (timeout _ _) as [S1 [a|t]]; discriminate.
Qed.
Lemma go_on_never0 O p c o b m : kind_of c = Some (GLocal b m) -> never0 (go_on O p c o).
Proof.
  intros H. destruct c; try discriminate; destruct o as [v|t]; cbn [go_on]; try (intros S S' b' n' g' ev; discriminate).
  - apply n0_local_next.
  - apply n0_bind. intros _. apply n0_bind. intros _. apply n0_bind. intros _. apply n0_local_next.
  - destruct t; intros S S' b' n' g' ev; discriminate.
Qed.

(** ** A process runs *)
Record kept (P : nat -> Prop) (S S' : sim) : Prop := MkKept {
  k_pend_ : pend P S' -> pend P S;
  k_heap_ : incl (heap S) (heap S');
  k_cbs_ : forall ev x c, event_at ev S = Some x -> In c (cbs_of x) -> exists x', event_at ev S' = Some x' /\ In c (cbs_of x') }.
Lemma mild_kept P S S' : mild P S S' -> kept P S S'.
Proof. intros H. constructor; apply H. Qed.
Lemma kept_same P S S' : evs S' = evs S -> heap S' = heap S -> kept P S S'.
Proof.
  intros E1 E2. constructor.
  - intros (ev & x & q & H). exists ev, x, q. unfold event_at in *. rewrite <- E1. exact H.
  - rewrite E2. apply incl_refl.
  - intros ev x c Hx Hc. exists x. unfold event_at in *. rewrite E1. auto.
Qed.
Lemma kept_trans P S1 S2 S3 : kept P S1 S2 -> kept P S2 S3 -> kept P S1 S3.
Proof.
  intros [a1 a2 a3] [b1 b2 b3]. constructor; [auto|eapply incl_tran; eassumption|].
  intros ev x c Hx Hc. destruct (a3 _ _ _ Hx Hc) as (x1 & H1 & H2). exact (b3 _ _ _ H1 H2).
Qed.
Lemma set_prc_kept P p f S : kept P S (set_prc p f S).
Proof. unfold set_prc. destruct (nth_error (prs S) p); apply kept_same; reflexivity. Qed.
Lemma set_event_kept P ev f S : (forall e, erole (f e) = erole e /\ (ecbs (f e) <> None -> ecbs e <> None) /\ incl (cbs_of e) (cbs_of (f e))) -> kept P S (exec_ (set_event ev f) S).
Proof. intros H. apply mild_kept. exact (mm_set_event P (extras S) ev f H S eq_refl). Qed.
Lemma defuse_kept P ev S : kept P S (exec_ (defuse ev) S).
Proof. apply set_event_kept. intros []; cbn; split; [reflexivity|split; [auto|apply incl_refl]]. Qed.
Lemma value_kept P (o : outcome) ev S : kept P S (exec_ (match o with Bad _ => defuse ev | _ => ret tt end) S).
Proof. destruct o; [apply kept_same; reflexivity|apply defuse_kept]. Qed.
Lemma hand_over_kept P p ev S : kept P S (hand_over p ev S).
Proof.
  unfold hand_over. destruct (event_at ev S) as [e|]; [|apply kept_same; reflexivity].
  assert (A : forall f, kept P S (set_prc p f (exec_ (add_cb ev (CResume p)) S))).
  { intros f. eapply kept_trans; [|apply set_prc_kept]. apply mild_kept. exact (mm_add_cb P (extras S) ev _ S eq_refl). }
  destruct (ecbs e); [apply A|]. destruct (evalue e) as [o|]; [|apply A]. eapply kept_trans; [apply (value_kept P o ev)|apply kept_same; reflexivity].
Qed.
Lemma end_process_kept P p o S : kept P S (end_process p o S).
Proof.
  unfold end_process. generalize (own_event p S). intros ev.
  eapply kept_trans; [apply (set_prc_kept P p (fun r => MkPrc (pkind r) (pown r) (ptarget r) KEnd))|]. generalize (set_prc p (fun r => MkPrc (pkind r) (pown r) (ptarget r) KEnd) S). intros S1.
  apply mild_kept. unfold exec_.
  assert (K : mildm P (extras S1) (set_event ev (fun e => MkEvt (erole e) (Some o) (edefused e) (ecbs e)) ;! schedule NORMAL 0 ev)); [|exact (K S1 eq_refl)].
  apply mm_bind; [|intros _; apply mm_schedule]. apply mm_set_event. intros []; cbn; split; [reflexivity|split; [auto|apply incl_refl]].
Qed.
Lemma exec_event_early ev f S : waiting (exec_ (set_event ev f) S) = waiting S.
Proof. unfold exec_, set_event, upd_. cbn [fst]. destruct (nth_error _ _); reflexivity. Qed.
Lemma set_prc_early p f S : waiting (set_prc p f S) = waiting S.
Proof. unfold set_prc. destruct (nth_error _ _); reflexivity. Qed.
Lemma hand_over_early p ev S : waiting (hand_over p ev S) = waiting S.
Proof.
  unfold hand_over. destruct (event_at ev S) as [e|]; [|reflexivity].
  assert (A : forall f, waiting (set_prc p f (exec_ (add_cb ev (CResume p)) S)) = waiting S) by (intros f; rewrite set_prc_early; apply exec_event_early).
  destruct (ecbs e); [apply A|]. destruct (evalue e) as [[v|t]|]; [reflexivity| |apply A].
  change (waiting (exec_ (defuse ev) S) = waiting S). apply exec_event_early.
Qed.
Lemma end_process_early p o S : waiting (end_process p o S) = waiting S.
Proof.
  unfold end_process. generalize (own_event p S). intros ev. transitivity (waiting (set_prc p (fun r => MkPrc (pkind r) (pown r) (ptarget r) KEnd) S)); [|apply set_prc_early]. generalize (set_prc p (fun r => MkPrc (pkind r) (pown r) (ptarget r) KEnd) S). intros S1.
  unfold exec_, bind, set_event, schedule, upd_. cbn [fst]. destruct (nth_error _ _); reflexivity.
Qed.

Definition awaits (q : nat) (r : prc) (S : sim) : Prop :=
  exists h x, In h (heap S) /\ qev h = ptarget r /\ event_at (ptarget r) S = Some x /\ In (CResume q) (cbs_of x).
(** What a run of [q] does to the others. *)
Definition ran (P : nat -> Prop) (q : nat) (r : prc) (l : list work) (S S' : sim) : Prop :=
  kept P S S' /\ exists r' new, prs S' = upd (prs S) q r' ++ new /\ pkind r' = pkind r /\
    Forall (fun r => due (pcode r) = None /\ forall m, pkind r <> Some (GExtra m)) new /\
    (forall m pro, pcode r' = KExtraPro m pro -> List.length (prs S) <= pro) /\
    (todo S' = l \/ exists o', todo S' = WRun q o' :: l /\ due (pcode r') = None) /\
    (due (pcode r') <> None -> awaits q r' S') /\ (forall b m g, pcode r' <> KLocal0 b m g).
Lemma run_keep O q o l r S P n (B : Prop) : Inv S -> todo S = WRun q o :: l -> proc_at q S = Some r ->
  (forall m, m <> n -> okn P (extras S) m) -> okn P (extras S) n \/ B -> okn P (extras S) n \/ ~ requested n S ->
  (forall m pro, pcode r = KExtraPro m pro -> o = Bad TInterrupt -> ~ P pro) -> (forall pro g, pcode r = KEnvWait pro g -> ~ P pro) ->
  let S' := work_off O (WRun q o) (set_todo l S) in (B /\ requested n S') \/ ran P q r l S S'.
Proof.
  intros H E Hr Hn Hb Hq H1 H2. destruct (Inv_tail _ _ _ H E) as [HT Nc]. cbv zeta. cbn [work_off].
  change (nth_error (prs (set_todo l S)) q) with (proc_at q S). rewrite Hr.
  pose proof (i_kind _ HT q r Hr) as [Hk Hkn]. pose proof (i_fits _ HT q r Hr) as Hf.
  assert (G : tri2 (go_on O q (pcode r) o) (set_todo l S) (lands (pkind r))).
  { apply (go_on_ok _ _ _ _ _ (ptarget r)); auto; [destruct Hk; auto|apply (i_env _ HT _ _ Hr)|].
    intros v t -> D. apply (i_due _ H q r v t Hr); [|exact D]. rewrite E. left. reflexivity. }
  unfold tri2 in G.
  assert (Ei : either_ P n B (go_on O q (pcode r) o) (set_todo l S)) by (apply (go_on_either P (extras S)); auto).
  unfold either_ in Ei.
  assert (Np : forall m, pkind r = Some (GExtra m) -> pcode r <> KEnd -> newp (go_on O q (pcode r) o)).
  { intros m Em Nk. apply (go_on_newp _ _ _ _ m). destruct Hk as [Hk|Hk]; [elim (Nk Hk)|congruence]. }
  assert (Ti : pcode r <> KEnd -> (exists b n, pkind r = Some (GLocal b n)) \/ pkind r = Some GEnvP -> timed (go_on O q (pcode r) o)).
  { intros Nk Em. apply go_on_timed. destruct Hk as [Hk|Hk]; [elim (Nk Hk)|rewrite <- Hk; exact Em]. }
  assert (Nk : forall S2 c ev, go_on O q (pcode r) o (set_todo l S) = (S2, inl (NWait c ev)) -> pcode r <> KEnd).
  { intros S2 c ev Eg Ek. rewrite Ek in Eg. destruct o as [v|t]; [|destruct t]; discriminate Eg. }
  destruct (go_on O q (pcode r) o (set_todo l S)) as [S2 x] eqn:Eg. destruct G as (HI & W & L). cbn [fst] in Ei.
  pose proof (wide_proc _ _ _ _ W Hr) as Hr2. pose proof (w_todo _ _ W) as Htodo. cbn [todo set_todo] in Htodo.
  assert (Hp : q < List.length (prs S)) by (apply nth_error_Some; unfold proc_at in Hr; congruence).
  assert (Rq : forall S', waiting S' = waiting S2 -> requested n S2 -> requested n S') by (intros S' Ew (y & Hy & Ey); exists y; split; [unfold waiting in Ew; rewrite Ew; exact Hy|exact Ey]).
  assert (KL : kept P S (set_todo l S)) by (apply kept_same; reflexivity).
  assert (Fin : forall o', (B /\ requested n (end_process q o' S2)) \/ ran P q r l S (end_process q o' S2)).
  { intros o'. destruct Ei as [Ei|[HB Rn]]; [|left; split; [exact HB|apply Rq; [apply end_process_early|exact Rn]]]. right.
    destruct (m_new _ _ _ Ei) as (new & Hprs & Hnew). cbn [prs set_todo] in Hprs.
    destruct (end_process_sum q r o' S2 Hr2) as (_ & C & _ & D & _). split.
    - eapply kept_trans; [exact KL|]. eapply kept_trans; [apply mild_kept; exact Ei|apply end_process_kept].
    - exists (MkPrc (pkind r) (pown r) (ptarget r) KEnd), new. rewrite D, Hprs, upd_app_old by exact Hp. split; [reflexivity|]. split; [reflexivity|]. split; [exact Hnew|].
      split; [discriminate|]. split; [left; rewrite C; exact Htodo|]. split; [|discriminate]. intros K. elim K. reflexivity. }
  destruct x as [[c ev|v]|t]; try apply Fin. specialize (Nk _ _ _ eq_refl).
  destruct L as (Kk & (e & He & _) & Ft & Fm). destruct (hand_over_sum q r c ev e S2 Hr2 He) as (_ & _ & _ & D). cbv zeta in D.
  assert (KH : kept P S2 (hand_over q ev (set_prc q (fun r => MkPrc (pkind r) (pown r) (ptarget r) c) S2))) by (eapply kept_trans; [apply set_prc_kept|apply hand_over_kept]).
  set (S' := hand_over q ev (set_prc q (fun r => MkPrc (pkind r) (pown r) (ptarget r) c) S2)) in *.
  destruct Ei as [Ei|[HB Rn]]; [|left; split; [exact HB|apply Rq; [unfold S'; rewrite hand_over_early, set_prc_early; reflexivity|exact Rn]]]. right.
  destruct (m_new _ _ _ Ei) as (new & Hprs & Hnew). cbn [prs set_todo] in Hprs.
  split; [eapply kept_trans; [exact KL|]; eapply kept_trans; [apply mild_kept; exact Ei|exact KH]|].
  assert (Fresh : forall m pro, c = KExtraPro m pro -> List.length (prs S) <= pro).
  { intros m pro ->. cbn [kind_of] in Kk. symmetry in Kk. exact (Np _ Kk Nk _ _ _ _ _ Eg). }
  assert (Qu : due c <> None -> queued ev S2).
  { intros Dc. refine (Ti Nk _ _ _ _ _ Eg Dc). destruct c; try (elim Dc; reflexivity); cbn [kind_of] in Kk; [left; eauto|right; auto]. }
  assert (N0 : forall b m g, c <> KLocal0 b m g).
  { intros b m g ->. cbn [kind_of] in Kk. destruct Hk as [Hk|Hk]; [elim (Nk Hk)|]. rewrite <- Kk in Hk. symmetry in Hk. exact (go_on_never0 O q _ o _ _ Hk _ _ _ _ _ _ Eg). }
  destruct D as [(o' & D1 & D2 & D3)|(D1 & D2)].
  - assert (Dc : due c = None).
    { destruct (due c) eqn:Dc; [|reflexivity]. assert (Dn : Some z <> None) by discriminate. destruct (Qu Dn) as (_ & x & Hx & Ex). unfold processed in D2. rewrite Hx, Ex in D2. discriminate D2. }
    exists (MkPrc (pkind r) (pown r) (ptarget r) c), new. rewrite D3, Hprs, upd_app_old by exact Hp. split; [reflexivity|]. split; [reflexivity|]. split; [exact Hnew|].
    split; [exact Fresh|]. split; [right; exists o'; rewrite D1, Htodo; auto|]. split; [|exact N0]. cbn [pcode]. intros Dn. elim (Dn Dc).
  - exists (MkPrc (pkind r) (pown r) ev c), new. rewrite D2, Hprs, upd_app_old by exact Hp. split; [reflexivity|]. split; [reflexivity|]. split; [exact Hnew|].
    split; [exact Fresh|]. split; [left; rewrite D1; exact Htodo|]. split; [|exact N0]. cbn [pcode]. intros Dc. destruct (Qu Dc) as ((h & Hh & Eh) & x & Hx & Ex).
    assert (Hx' : exists x', event_at ev S' = Some x' /\ In (CResume q) (cbs_of x')).
    { unfold S'. unfold hand_over. set (S3 := set_prc q _ S2). assert (Hx3 : event_at ev S3 = Some x) by (unfold S3, set_prc; destruct (nth_error (prs S2) q); exact Hx).
      rewrite Hx3, Ex. unfold set_prc at 1. assert (Hx4 : event_at ev (exec_ (add_cb ev (CResume q)) S3) = Some (MkEvt (erole x) (evalue x) (edefused x) (Some [CResume q]))).
      { unfold exec_, add_cb, set_event, upd_. cbn [fst]. change (nth_error (evs S3) ev) with (event_at ev S3). rewrite Hx3, Ex. unfold event_at. cbn [evs set_evs]. rewrite (upd_same _ _ _ _ Hx3). reflexivity. }
      eexists. split; [destruct (nth_error _ q); exact Hx4|]. left. reflexivity. }
    destruct Hx' as (x' & Hx' & Hi). exists h, x'. cbn [ptarget]. repeat split; auto. apply (k_heap_ _ _ _ KH). exact Hh.
Qed.

Lemma nth_error_app_or {A} (a b : list A) i x : nth_error (a ++ b) i = Some x -> nth_error a i = Some x \/ exists j, nth_error b j = Some x.
Proof.
  intros H. destruct (Nat.lt_ge_cases i (List.length a)) as [L|L]; [left; rewrite nth_error_app1 in H by exact L; exact H|].
  right. rewrite nth_error_app2 in H by exact L. eauto.
Qed.
(** ** Who waits for a time is waited for by the queue *)
Definition Waits (S : sim) : Prop := forall p r, proc_at p S = Some r -> due (pcode r) <> None ->
  awaits p r S \/ In (WCb (ptarget r) (CResume p)) (todo S) \/ exists o, In (WRun p o) (todo S).

Lemma awaits_kept P p r S S' : kept P S S' -> awaits p r S -> awaits p r S'.
Proof.
  intros K (h & x & Hh & Eh & Hx & Hc). destruct (k_cbs_ _ _ _ K _ _ _ Hx Hc) as (x' & Hx' & Hc'). exists h, x'. repeat split; auto. apply (k_heap_ _ _ _ K). exact Hh.
Qed.
Lemma pop_min_in q h l x : pop_min l = Some (q, h) -> In x l -> x = q \/ In x h.
Proof.
  revert q h. induction l as [|y l IH]; intros q h; cbn [pop_min]; [discriminate|]. destruct (pop_min l) as [[m r]|] eqn:Ep.
  - destruct (earlier y m).
    + intros [= <- <-] [->|H]; auto.
    + intros [= <- <-] [->|H]; [right; left; reflexivity|]. destruct (IH _ _ eq_refl H) as [->|H1]; [auto|right; right; exact H1].
  - intros [= <- <-] [->|H]; [auto|]. destruct l as [|z l]; [destruct H|]. cbn [pop_min] in Ep. destruct (pop_min l) as [[m r]|]; [destruct (earlier z m)|]; discriminate.
Qed.
(** The step that takes an event from the queue. *)
Lemma pop_eq O S S' : Inv S -> todo S = [] -> sim_step O S = Some S' -> exists q h e, pop_min (heap S) = Some (q, h) /\ In q (heap S) /\ event_at (qev q) S = Some e /\
  heap S' = h /\ prs S' = prs S /\ log S' = log S /\ evs S' = upd (evs S) (qev q) (MkEvt (erole e) (evalue e) (edefused e) None) /\ todo S' = map (WCb (qev q)) (cbs_of e) ++ [WEnd (qev q)] /\ waiting S' = waiting S.
Proof.
  intros H Et. unfold sim_step. destruct (dead S); [discriminate|]. rewrite Et. destruct (pop_min (heap S)) as [[q h]|] eqn:Ep; [|discriminate]. cbv zeta.
  change (event_at (qev q) (set_now (qtime q) (set_queue (eid S) h S))) with (event_at (qev q) S).
  destruct (pop_min_ok _ _ _ Ep) as [Hq _]. destruct (i_heap _ H _ Hq) as (_ & e & He & _). rewrite He. intros [= <-].
  exists q, h, e. unfold exec_, set_event, upd_. cbn [fst evs set_now set_queue]. change (nth_error (evs S) (qev q)) with (event_at (qev q) S). rewrite He. repeat split; auto.
Qed.
Lemma remove_other c d l : In c l -> c <> d -> In c (remove_cb d l).
Proof.
  induction l as [|x l IH]; [intros []|]. cbn [remove_cb]. intros [->|H] N.
  - destruct (cb_eqb c d) eqn:Ec; [|left; reflexivity]. elim N. destruct c, d; cbn [cb_eqb] in Ec; try discriminate; apply Nat.eqb_eq in Ec; subst; reflexivity.
  - destruct (cb_eqb x d); [exact H|right; apply IH; assumption].
Qed.
Lemma interrupt_event_at p i S ev x : event_at ev S = Some x ->
  exists x', event_at ev (exec_ (set_event i (fun e => MkEvt (erole e) (evalue e) (edefused e) (match ecbs e with Some l => Some (remove_cb (CResume p) l) | None => None end))) S) = Some x' /\
    erole x' = erole x /\ (forall c, In c (cbs_of x) -> c <> CResume p -> In c (cbs_of x')).
Proof.
  intros Hx. unfold exec_, set_event, upd_. cbn [fst]. destruct (nth_error (evs S) i) as [y|] eqn:Hy; [|exists x; auto].
  unfold event_at in *. cbn [evs set_evs]. destruct (Nat.eq_dec ev i) as [->|N]; [|rewrite upd_other by exact N; exists x; auto].
  assert (y = x) by congruence. subst y. rewrite (upd_same _ _ _ _ Hy). eexists. split; [reflexivity|]. split; [reflexivity|]. cbn [cbs_of ecbs].
  intros c Hc N. unfold cbs_of in Hc |- *. cbn [ecbs]. destruct (ecbs x) as [l|]; [apply remove_other; assumption|destruct Hc].
Qed.

Lemma nobody_okn X m : okn (fun _ => False) X m.
Proof. intros q _ H. exact H. Qed.
Lemma waits_step O S S' : Inv S -> Jc S -> Waits S -> sim_step O S = Some S' -> Waits S'.
Proof.
  intros H J Wt Hs. destruct (todo S) as [|w l] eqn:Et.
  - destruct (pop_eq _ _ _ H Et Hs) as (q & h & e & Ep & Hq & He & Eh & Epr & _ & Ee & Eto & _). intros p r Hr Dr. unfold proc_at in Hr. rewrite Epr in Hr.
    destruct (Wt p r Hr Dr) as [(k & x & Hk & Ek & Hx & Hc)|[K|(o & K)]]; [|rewrite Et in K; destruct K|rewrite Et in K; destruct K].
    destruct (Nat.eq_dec (qev q) (ptarget r)) as [E1|N].
    + right. left. rewrite Eto, <- E1. apply in_or_app. left. apply in_map. rewrite E1 in He. assert (e = x) by congruence. subst e. exact Hc.
    + left. exists k, x. split; [|split; [exact Ek|split; [|exact Hc]]].
      * rewrite Eh. destruct (pop_min_in _ _ _ _ Ep Hk) as [->|K]; [elim N; exact Ek|exact K].
      * unfold event_at. rewrite Ee, upd_other by (intros K; apply N; symmetry; exact K). exact Hx.
  - revert Hs. unfold sim_step. destruct (dead S); [discriminate|]. rewrite Et. intros [= <-].
    assert (Gen : forall S', kept (fun _ => False) S S' -> prs S' = prs S -> todo S' = l -> (forall p r, proc_at p S = Some r -> due (pcode r) <> None -> w <> WCb (ptarget r) (CResume p)) -> (forall p o, w <> WRun p o) -> Waits S').
    { intros S' K Ep El Nw Nr p r Hr Dr. unfold proc_at in Hr. rewrite Ep in Hr. rewrite El. destruct (Wt p r Hr Dr) as [A|[A|(o & A)]].
      - left. exact (awaits_kept _ _ _ _ _ K A).
      - rewrite Et in A. destruct A as [A|A]; [elim (Nw p r Hr Dr A)|auto].
      - rewrite Et in A. destruct A as [A|A]; [elim (Nr p o A)|eauto]. }
    destruct w as [ev [p|p|c]|p o|ev].
    + cbn [work_off]. change (event_at ev (set_todo l S)) with (event_at ev S).
      assert (Hw : In (WCb ev (CResume p)) (todo S)) by (rewrite Et; left; reflexivity). destruct (i_resw _ H _ _ Hw) as (rp & Hrp & Tp).
      destruct (i_cbw _ H _ _ Hw) as (e & He & _). rewrite He. destruct (evalue e) as [o|] eqn:Ev.
      * set (S2 := exec_ _ (set_todo l S)). assert (K2 : kept (fun _ => False) S S2) by (eapply kept_trans; [|apply value_kept]; apply kept_same; reflexivity).
        assert (P2 : prs S2 = prs S) by (unfold S2; destruct o; [reflexivity|]; unfold defuse; rewrite exec_event_prs; reflexivity).
        intros q r Hr Dr. unfold proc_at in Hr. cbn [prs set_todo] in Hr. rewrite P2 in Hr. cbn [todo set_todo]. destruct (Wt q r Hr Dr) as [A|[A|(o' & A)]].
        -- left. exact (awaits_kept _ _ _ _ _ K2 A).
        -- rewrite Et in A. destruct A as [A|A]; [injection A as _ <-; right; right; exists o; left; reflexivity|right; left; right; exact A].
        -- rewrite Et in A. destruct A as [A|A]; [discriminate|right; right; exists o'; right; exact A].
      * apply Gen; [apply kept_same; reflexivity|reflexivity|reflexivity| |discriminate].
        intros q r Hr Dr [= E1 <-]. pose proof (i_fits _ H _ _ Hr) as Ft. destruct (due (pcode r)) as [t|] eqn:Ed; [|elim Dr; reflexivity].
        assert (Rt : role_at (ptarget r) (RTime t) S) by (destruct (pcode r); try discriminate; injection Ed as <-; exact Ft).
        apply (j_time _ J) in Rt. unfold value_of in Rt. rewrite <- E1, He, Ev in Rt. discriminate.
    + cbn [work_off]. destruct (ended p (set_todo l S)); [apply Gen; [apply kept_same; reflexivity|reflexivity|reflexivity|discriminate|discriminate]|].
      change (nth_error (prs (set_todo l S)) p) with (proc_at p S). destruct (proc_at p S) as [rp|] eqn:Hrp; [|apply Gen; [apply kept_same; reflexivity|reflexivity|reflexivity|discriminate|discriminate]].
      cbv zeta. intros q r Hr Dr. unfold proc_at in Hr. cbn [prs set_todo] in Hr. rewrite exec_event_prs in Hr. change (nth_error (prs S) q = Some r) in Hr. cbn [todo set_todo].
      set (S2 := exec_ _ _). assert (T2 : todo S2 = l) by (clear; unfold S2, exec_, set_event, upd_; cbn [fst]; destruct (nth_error _ _); reflexivity). rewrite T2.
      destruct (Nat.eq_dec q p) as [->|N]; [right; right; exists (Bad TInterrupt); left; reflexivity|].
      destruct (Wt q r Hr Dr) as [(k & x & Hk & Ek & Hx & Hc)|[A|(o' & A)]].
      * left. destruct (interrupt_event_at p (ptarget rp) (set_todo l S) _ _ Hx) as (x' & Hx' & _ & Hc'). exists k, x'. split; [|split; [exact Ek|split; [exact Hx'|apply Hc'; [exact Hc|congruence]]]].
        clear - Hk. unfold S2, exec_, set_event, upd_. cbn [fst]. cbn [heap set_todo]. destruct (nth_error _ _); exact Hk.
      * rewrite Et in A. destruct A as [A|A]; [discriminate|right; left; right; exact A].
      * rewrite Et in A. destruct A as [A|A]; [discriminate|right; right; exists o'; right; exact A].
    + cbn [work_off]. unfold exec_. pose proof (mm_check (fun _ => False) (extras (set_todo l S)) c ev (set_todo l S) eq_refl) as M.
      destruct (m_new _ _ _ M) as (new & Hp & Hnew). intros q r Hr Dr. rewrite (m_todo_ _ _ _ M). cbn [todo set_todo].
      unfold proc_at in Hr. rewrite Hp in Hr. apply nth_error_app_or in Hr. destruct Hr as [Hr|(i & Hr)].
      * destruct (Wt q r Hr Dr) as [A|[A|(o' & A)]].
        -- left. eapply awaits_kept; [apply mild_kept; exact M|]. exact A.
        -- rewrite Et in A. destruct A as [A|A]; [discriminate|auto].
        -- rewrite Et in A. destruct A as [A|A]; [discriminate|eauto].
      * apply nth_error_In in Hr. rewrite Forall_forall in Hnew. elim Dr. apply (Hnew _ Hr).
    + destruct (proc_at p S) as [rp|] eqn:Hrp.
      2: { cbn [work_off]. change (nth_error (prs (set_todo l S)) p) with (proc_at p S). rewrite Hrp. intros q r Hr Dr. change (proc_at q S = Some r) in Hr. cbn [todo set_todo].
           destruct (Wt q r Hr Dr) as [A|[A|(o' & A)]]; [left; exact A|rewrite Et in A; destruct A as [A|A]; [discriminate|auto]|].
           rewrite Et in A. destruct A as [A|A]; [injection A as <- <-; congruence|eauto]. }
      destruct (run_keep O p o l rp S (fun _ => False) "" False H Et Hrp) as [[[] _]|(K & r' & new & Hp & _ & Hnew & _ & Hto & Haw & _)];
        try (intros; apply nobody_okn); try (left; apply nobody_okn); try (intros; intros X; exact X).
      assert (Hlen : p < List.length (prs S)) by (apply nth_error_Some; unfold proc_at in Hrp; congruence).
      intros q r Hr Dr. unfold proc_at in Hr. rewrite Hp in Hr. apply nth_error_app_or in Hr. destruct Hr as [Hr|(i & Hr)].
      * destruct (Nat.eq_dec q p) as [->|N].
        -- rewrite (upd_same _ _ _ _ Hrp) in Hr. injection Hr as <-. left. apply Haw. exact Dr.
        -- rewrite upd_other in Hr by exact N. assert (Sub : forall x, In x l -> In x (todo (work_off O (WRun p o) (set_todo l S)))) by (intros x Hx; destruct Hto as [->|(o' & -> & _)]; [exact Hx|right; exact Hx]).
           destruct (Wt q r Hr Dr) as [A|[A|(o' & A)]].
           ++ left. exact (awaits_kept _ _ _ _ _ K A).
           ++ rewrite Et in A. destruct A as [A|A]; [discriminate|right; left; apply Sub; exact A].
           ++ rewrite Et in A. destruct A as [A|A]; [injection A as <- _; elim N; reflexivity|right; right; exists o'; apply Sub; exact A].
      * apply nth_error_In in Hr. rewrite Forall_forall in Hnew. elim Dr. apply (Hnew _ Hr).
    + cbn [work_off]. change (event_at ev (set_todo l S)) with (event_at ev S). apply Gen; try discriminate; (destruct (event_at ev S) as [x|]; [destruct (evalue x) as [[v|t]|]; try destruct (edefused x)|]); try reflexivity; apply kept_same; reflexivity.
Qed.

Lemma waits_init t s env : Waits (sim_init t s env).
Proof.
  destruct (init_hush t s env) as (_ & _ & _ & _ & F). intros p r Hr D. rewrite Forall_forall in F. elim D. apply F. unfold proc_at in Hr. apply nth_error_In in Hr. exact Hr.
Qed.
Lemma waits_runs O t s env S : (forall g, env = Some g -> outside g) -> sim_runs O (sim_init t s env) S -> Waits S.
Proof.
  intros He H. remember (sim_init t s env) as S0 eqn:E. induction H as [|S0 S1 S2 R IH Hs]; [subst; apply waits_init|].
  subst S0. pose proof (sim_told O t s env S1 He R) as T. eapply waits_step; [apply T|apply T|apply IH; reflexivity|exact Hs].
Qed.

Definition same_prs {A} (m : M A) : Prop := forall S, prs (fst (m S)) = prs S.
Lemma sp_bind {A B} (m : M A) (k : A -> M B) : same_prs m -> (forall a, same_prs (k a)) -> same_prs (bind m k).
Proof. intros Hm Hk S. unfold bind. pose proof (Hm S) as H. destruct (m S) as [S1 [a|t]]; cbn [fst] in H |- *; [|exact H]. rewrite Hk. exact H. Qed.
Lemma sp_set ev f : same_prs (set_event ev f).
Proof. intros S. exact (exec_event_prs ev f S). Qed.
Lemma sp_sch a d ev : same_prs (schedule a d ev).
Proof. intros S. reflexivity. Qed.
Lemma exec_check_prs c ev S : prs (fst (check c ev S)) = prs S.
Proof.
  assert (Su : same_prs (succeed c)).
  { unfold succeed. apply sp_bind; [intros ?; reflexivity|intros S1]. destruct (trig S1 c); [intros ?; reflexivity|]. apply sp_bind; [apply sp_set|intros _; apply sp_sch]. }
  revert S. change (same_prs (check c ev)). unfold check. apply sp_bind; [intros ?; reflexivity|intros S1]. destruct (trig S1 c); [intros ?; reflexivity|].
  destruct (event_at ev S1) as [x|]; [|intros ?; reflexivity]. destruct (evalue x) as [[v|t]|]; try exact Su.
  apply sp_bind; [apply sp_set|intros _]. apply sp_bind; [apply sp_set|intros _; apply sp_sch].
Qed.

(** ** A request in progress *)
Section Keep.
Variable O : oracle.
Variable n : string.
Variable p : nat.

Definition sel (S : sim) (q : nat) : Prop := q = p \/ exists r, proc_at q S = Some r /\ pkind r = Some (GExtra n).
Record Keep (e : event) (k : gen) (S : sim) : Prop := MkKeep {
  ke_proc : in_progress n p e k S;
  ke_pend : ~ pend (sel S) S;
  ke_int : forall ev q, In (WCb ev (CInt q)) (todo S) -> ~ sel S q;
  ke_run : forall q r o, proc_at q S = Some r -> pcode r = KExtraPro n p -> ~ In (WRun q o) (todo S);
  ke_runp : forall o, In (WRun p o) (todo S) -> exists v, o = Good v }.

Lemma pend_sub (P Q : nat -> Prop) S : (forall q, P q -> Q q) -> pend P S -> pend Q S.
Proof. intros H (ev & x & q & A & B & C & D). exists ev, x, q. auto. Qed.

Lemma keep_step e k S S' : Inv S -> Jc S -> Inv S' -> ~ requested n S -> ~ requested n S' -> Keep e k S -> sim_step O S = Some S' ->
  Keep e k S' \/ ((exists new, log S' = log S ++ new /\ In (etime e, e) new) /\ ((exists e' k', Keep e' k' S') \/ gone p S')).
Proof.
  intros H J H' Nr Nr' [(rp & Hrp & Ecp) Kp Ki Kr Krp] Hs. change (proc_at p S = Some rp) in Hrp.
  assert (Ekp : pkind rp = Some (GLocal false n)) by (destruct (i_kind _ H _ _ Hrp) as [[K|K] _]; rewrite Ecp in K; [discriminate|exact K]).
  destruct (todo S) as [|w l] eqn:Et.
  - left. destruct (pop_eq _ _ _ H Et Hs) as (q & h & x & Ep & Hq & Hx & Eh & Epr & _ & Ee & Eto & _).
    assert (Se : forall q, sel S' q -> sel S q) by (intros y; unfold sel, proc_at; rewrite Epr; auto).
    constructor.
    + exists rp. rewrite Epr. auto.
    + intros (ev & y & i & Hy & Er & Hi & Hc). apply Kp. unfold event_at in Hy. rewrite Ee in Hy. destruct (Nat.eq_dec ev (qev q)) as [->|N].
      * rewrite (upd_same _ _ _ _ Hx) in Hy. injection Hy as <-. elim Hc. reflexivity.
      * rewrite upd_other in Hy by exact N. exists ev, y, i. auto.
    + intros ev i Hi Si. apply Kp. rewrite Eto in Hi. apply in_app_or in Hi. destruct Hi as [Hi|[Hi|[]]]; [|discriminate].
      apply in_map_iff in Hi. destruct Hi as (c & [= <- ->] & Hc). exists (qev q), x, i. repeat split; auto; [exact (i_int _ H _ _ _ Hx Hc)|].
      unfold cbs_of in Hc. intros K. rewrite K in Hc. destruct Hc.
    + intros i r o _ _ Hi. rewrite Eto in Hi. apply in_app_or in Hi. destruct Hi as [Hi|[Hi|[]]]; [|discriminate]. apply in_map_iff in Hi. destruct Hi as (c & [=] & _).
    + intros o Hi. rewrite Eto in Hi. apply in_app_or in Hi. destruct Hi as [Hi|[Hi|[]]]; [|discriminate]. apply in_map_iff in Hi. destruct Hi as (c & [=] & _).
  - revert Hs. unfold sim_step. destruct (dead S) eqn:Ed; [discriminate|]. rewrite Et. intros [= <-].
    assert (Gen : forall S', kept (sel S) S S' -> prs S' = prs S -> (todo S' = l \/ exists q o, todo S' = WRun q o :: l /\ (q = p -> exists v, o = Good v) /\ (forall r, proc_at q S = Some r -> pcode r <> KExtraPro n p)) -> Keep e k S').
    { intros S1 K Ep Eto. assert (Se : forall q, sel S1 q -> sel S q) by (intros y; unfold sel, proc_at; rewrite Ep; auto). constructor.
      - exists rp. rewrite Ep. auto.
      - intros Hpe. apply Kp. apply (k_pend_ _ _ _ K). exact (pend_sub _ _ _ Se Hpe).
      - intros ev q Hi Si. apply (Ki ev q); [|apply Se; exact Si]. right. destruct Eto as [E1|(i & o & E1 & _)]; rewrite E1 in Hi; [exact Hi|]. destruct Hi as [Hi|Hi]; [discriminate|exact Hi].
      - intros q r o Hr Ec Hi. unfold proc_at in Hr. rewrite Ep in Hr. destruct Eto as [E1|(i & o1 & E1 & _ & N)]; rewrite E1 in Hi; [|destruct Hi as [[= -> ->]|Hi]; [exact (N r Hr Ec)|]];
          apply (Kr q r o Hr Ec); right; exact Hi.
      - intros o Hi. destruct Eto as [E1|(i & o1 & E1 & G & _)]; rewrite E1 in Hi; [|destruct Hi as [[= -> ->]|Hi]; [exact (G eq_refl)|]]; apply Krp; right; exact Hi. }
    destruct w as [ev [q|q|c]|q o|ev].
    + left. cbn [work_off]. change (event_at ev (set_todo l S)) with (event_at ev S).
      assert (Hw : In (WCb ev (CResume q)) (todo S)) by (rewrite Et; left; reflexivity). destruct (i_resw _ H _ _ Hw) as (r & Hr & Tr).
      destruct (i_cbw _ H _ _ Hw) as (x & Hx & _). rewrite Hx. destruct (evalue x) as [o|] eqn:Ev; [|apply Gen; [apply kept_same; reflexivity|reflexivity|left; reflexivity]].
      apply Gen.
      * eapply kept_trans; [apply (kept_same _ S (set_todo l S)); reflexivity|]. eapply kept_trans; [apply (value_kept _ o ev)|apply kept_same; reflexivity].
      * cbn [prs set_todo]. destruct o; [reflexivity|]. unfold defuse. rewrite exec_event_prs. reflexivity.
      * right. exists q, o. split; [reflexivity|]. split.
        -- intros ->. assert (r = rp) by congruence. subst r. pose proof (i_fits _ H _ _ Hr) as Ft. rewrite Ecp in Ft. cbn [fits] in Ft. apply (j_time _ J) in Ft.
           unfold value_of in Ft. rewrite Tr, Hx in Ft. rewrite Ev in Ft. injection Ft as ->. eauto.
        -- intros r1 Hr1 Ec. assert (r1 = r) by congruence. subst r1. pose proof (i_fits _ H _ _ Hr) as Ft. rewrite Ec in Ft. cbn [fits] in Ft.
           destruct Ft as (r2 & Hr2 & _ & Eo). assert (r2 = rp) by congruence. subst r2. destruct (i_own _ H _ _ Hrp) as (x2 & Hx2 & _ & Iv). rewrite Eo, Tr, Hx in Hx2. injection Hx2 as <-.
           rewrite Ecp in Iv. destruct Iv as [_ Iv]. rewrite Iv in Ev; [discriminate|discriminate].
    + left. assert (Ns : ~ sel S q) by (apply (Ki ev); left; reflexivity). cbn [work_off]. destruct (ended q (set_todo l S)); [apply Gen; [apply kept_same; reflexivity|reflexivity|left; reflexivity]|].
      change (nth_error (prs (set_todo l S)) q) with (proc_at q S). destruct (proc_at q S) as [r|] eqn:Hr; [|apply Gen; [apply kept_same; reflexivity|reflexivity|left; reflexivity]].
      cbv zeta. set (S2 := exec_ _ _). assert (T2 : todo S2 = l) by (clear; unfold S2, exec_, set_event, upd_; cbn [fst]; destruct (nth_error _ _); reflexivity).
      assert (P2 : prs S2 = prs S) by (unfold S2; rewrite exec_event_prs; reflexivity).
      assert (Pe : forall P, pend P (set_todo (WRun q (Bad TInterrupt) :: todo S2) S2) -> pend P S).
      { clear. intros P (i & y & j & Hy & Er & Hj & Hc). change (event_at i S2 = Some y) in Hy. unfold S2, exec_, set_event, upd_ in Hy. cbn [fst] in Hy. change (evs (set_todo l S)) with (evs S) in Hy.
        destruct (nth_error (evs S) (ptarget r)) as [z|] eqn:Hz; [|exists i, y, j; auto]. unfold event_at in Hy. cbn [evs set_evs] in Hy.
        destruct (Nat.eq_dec i (ptarget r)) as [->|N]; [|rewrite upd_other in Hy by exact N; exists i, y, j; auto].
        rewrite (upd_same _ _ _ _ Hz) in Hy. injection Hy as <-. cbn [erole ecbs] in *. exists (ptarget r), z, j. repeat split; auto. intros K. rewrite K in Hc. auto. }
      assert (Se : forall y, sel (set_todo (WRun q (Bad TInterrupt) :: todo S2) S2) y -> sel S y) by (intros y; unfold sel, proc_at; cbn [prs set_todo]; rewrite P2; auto).
      constructor.
      * exists rp. cbn [prs set_todo]. rewrite P2. auto.
      * intros Hpe. apply Kp. apply Pe. exact (pend_sub _ _ _ Se Hpe).
      * intros i y Hi Sy. cbn [todo set_todo] in Hi. rewrite T2 in Hi. destruct Hi as [Hi|Hi]; [discriminate|]. apply (Ki i y); [right; exact Hi|apply Se; exact Sy].
      * intros i r1 o Hr1 Ec Hi. unfold proc_at in Hr1. cbn [prs set_todo todo] in Hr1, Hi. rewrite P2 in Hr1. rewrite T2 in Hi. destruct Hi as [[= <- <-]|Hi]; [|apply (Kr i r1 o Hr1 Ec); right; exact Hi].
        apply Ns. right. exists r1. split; [exact Hr1|]. destruct (i_kind _ H _ _ Hr1) as [[K|K] _]; rewrite Ec in K; [discriminate|exact K].
      * intros o Hi. cbn [todo set_todo] in Hi. rewrite T2 in Hi. destruct Hi as [[= E1 <-]|Hi]; [elim Ns; left; exact E1|]. apply Krp. right. exact Hi.
    + left. cbn [work_off]. unfold exec_. pose proof (mm_check (sel S) (extras (set_todo l S)) c ev (set_todo l S) eq_refl) as M.
      pose proof (m_todo_ _ _ _ M) as Eto. cbn [todo set_todo] in Eto. destruct (m_new _ _ _ M) as (new & Hp & Hnew).
      assert (Pn : new = []).
      { clear - Hp. pose proof (f_equal (@List.length prc) Hp) as E. rewrite app_length in E. cbn [prs set_todo] in E. rewrite exec_check_prs in E. cbn [prs set_todo] in E. destruct new; [reflexivity|cbn [List.length] in E; lia]. }
      subst new. rewrite app_nil_r in Hp. apply Gen; [eapply kept_trans; [|apply mild_kept; exact M]; apply kept_same; reflexivity|exact Hp|left; exact Eto].
    + destruct (proc_at q S) as [r|] eqn:Hr.
      2: { left. cbn [work_off]. change (nth_error (prs (set_todo l S)) q) with (proc_at q S). rewrite Hr. apply Gen; [apply kept_same; reflexivity|reflexivity|left; reflexivity]. }
      assert (Okm : forall m, m <> n -> okn (sel S) (extras S) m).
      { intros m Nm i Hi [->|(r1 & Hr1 & Ek)]; destruct (i_extras _ H _ _ Hi) as (r2 & Hr2 & Ek2); [congruence|]. assert (r1 = r2) by congruence. subst r2. congruence. }
      destruct (run_keep O q o l r S (sel S) n True H Et Hr Okm) as [[_ Rq]|(K & r' & new & Hp & Ekr & Hnew & Hfr & Hto & _ & N0)].
      * right. exact I.
      * right. exact Nr.
      * intros m pro Ec -> Sp. pose proof (i_fits _ H _ _ Hr) as Ft. rewrite Ec in Ft. cbn [fits] in Ft. destruct Ft as (r1 & Hr1 & Ek1 & _).
        destruct Sp as [->|(r2 & Hr2 & Ek2)]; [|congruence]. assert (r1 = rp) by congruence. subst r1. assert (m = n) by congruence. subst m.
        apply (Kr q r (Bad TInterrupt) Hr Ec). left. reflexivity.
      * intros pro g Ec Sp. pose proof (i_fits _ H _ _ Hr) as Ft. rewrite Ec in Ft. cbn [fits] in Ft. destruct Ft as (r1 & Hr1 & Ek1).
        destruct Sp as [->|(r2 & Hr2 & Ek2)]; congruence.
      * elim Nr'. exact Rq.
      * assert (Lg : q = p -> exists new, log (work_off O (WRun q o) (set_todo l S)) = log S ++ new /\ In (etime e, e) new).
        { intros ->. destruct (Krp o (or_introl eq_refl)) as (v & ->). destruct (run_sum O p (Good v) l rp S H Et Hrp) as (E1 & _). cbv zeta in E1. rewrite Ecp in E1.
          eexists. split; [exact E1|]. cbn [RunFacts.told said map]. left. f_equal. apply (i_due _ H p rp v (etime e) Hrp); [rewrite Et; left; reflexivity|rewrite Ecp; reflexivity]. }
        assert (Hpl : p < List.length (prs S)) by (apply nth_error_Some; unfold proc_at in Hrp; congruence).
        set (S' := work_off O (WRun q o) (set_todo l S)) in *.
        assert (Pa : forall i r1, proc_at i S' = Some r1 -> (i = q /\ r1 = r') \/ (i <> q /\ proc_at i S = Some r1) \/ In r1 new).
        { intros i r1 Hi. unfold proc_at in Hi. rewrite Hp in Hi. apply nth_error_app_or in Hi. destruct Hi as [Hi|(j & Hi)]; [|right; right; exact (nth_error_In _ _ Hi)].
          destruct (Nat.eq_dec i q) as [->|Ni]; [|rewrite upd_other in Hi by exact Ni; auto]. rewrite (upd_same _ _ _ _ Hr) in Hi. injection Hi as <-. auto. }
        assert (Se : forall i, sel S' i -> sel S i).
        { intros i [->|(r1 & Hr1 & Ek1)]; [left; reflexivity|right]. destruct (Pa _ _ Hr1) as [[-> ->]|[[_ Hr2]|Hr2]]; [exists r; rewrite <- Ekr; auto|eauto|]. rewrite Forall_forall in Hnew. elim (proj2 (Hnew _ Hr2) _ Ek1). }
        assert (Hto' : forall x, In x (todo S') -> In x l \/ exists o', x = WRun q o' /\ due (pcode r') = None).
        { intros x Hx. destruct Hto as [E1|(o' & E1 & D1)]; rewrite E1 in Hx; [auto|]. destruct Hx as [<-|Hx]; eauto. }
        assert (KK : forall e' k', in_progress n p e' k' S' -> (q = p -> due (pcode r') <> None) -> Keep e' k' S').
        { intros e' k' Ip Dq. constructor.
          - exact Ip.
          - intros Hpe. apply Kp. apply (k_pend_ _ _ _ K). exact (pend_sub _ _ _ Se Hpe).
          - intros i y Hi Sy. apply (Ki i y); [|apply Se; exact Sy]. right. destruct (Hto' _ Hi) as [Hi'|(o' & Ei & _)]; [exact Hi'|discriminate].
          - intros i r1 o1 Hr1 Ec Hi. destruct (Pa _ _ Hr1) as [[-> ->]|[[Ni Hr2]|Hr2]].
            + pose proof (Hfr _ _ Ec) as L. lia.
            + apply (Kr i r1 o1 Hr2 Ec). right. destruct (Hto' _ Hi) as [Hi'|(o' & [= E2 _] & _)]; [exact Hi'|elim Ni; exact E2].
            + rewrite Forall_forall in Hnew. destruct (i_kind _ H' _ _ Hr1) as [[K1|K1] _]; rewrite Ec in K1; [discriminate|]. elim (proj2 (Hnew _ Hr2) n K1).
          - intros o1 Hi. destruct (Hto' _ Hi) as [Hi'|(o' & [= E2 _] & D1)]; [apply Krp; right; exact Hi'|]. elim (Dq (eq_sym E2) D1). }
        destruct (Nat.eq_dec q p) as [Eq|N].
        -- right. split; [exact (Lg Eq)|]. subst q. assert (r = rp) by congruence. subst r.
           assert (Hr' : proc_at p S' = Some r') by (unfold proc_at; rewrite Hp, nth_error_app1; [exact (upd_same _ _ _ _ Hrp)|rewrite upd_length; exact Hpl]).
           destruct (i_kind _ H' _ _ Hr') as [[K1|K1] _]; [right; exists r'; auto|]. rewrite Ekr, Ekp in K1. destruct (pcode r') eqn:Ec; try discriminate.
           ++ elim (N0 isproc name g). reflexivity.
           ++ injection K1 as <- <-. left. exists e0, g. apply KK; [exists r'; auto|discriminate].
        -- left. apply KK; [|intros E1; elim (N E1)]. exists rp. split; [|exact Ecp]. rewrite Hp. rewrite nth_error_app1; [rewrite upd_other by (intros K1; apply N; symmetry; exact K1); exact Hrp|rewrite upd_length; exact Hpl].
    + left. cbn [work_off]. change (event_at ev (set_todo l S)) with (event_at ev S).
      apply Gen; (destruct (event_at ev S) as [x|]; [destruct (evalue x) as [[v|t]|]; try destruct (edefused x)|]); try reflexivity; try (left; reflexivity); apply kept_same; reflexivity.
Qed.
End Keep.

Lemma runs_between O S S1 S2 : sim_runs O S S1 -> sim_step O S1 = Some S2 -> sim_runs O S S2.
Proof. intros R Hs. exact (sim_runs_step _ _ _ _ R Hs). Qed.
Lemma runs_app O S S1 S2 : sim_runs O S S1 -> sim_runs O S1 S2 -> sim_runs O S S2.
Proof. intros R1 R2. induction R2 as [|S1 S2 S3 R2 IH Hs]; [exact R1|]. exact (sim_runs_step _ _ _ _ (IH R1) Hs). Qed.
Lemma inv2_runs O t s env S : sim_runs O (sim_init t s env) S -> Inv2 S.
Proof.
  intros H. remember (sim_init t s env) as S0 eqn:E. induction H as [|S0 S1 S2 R IH Hs]; [subst; apply init_rest|]. eapply step_ok2; [apply IH; exact E|exact Hs].
Qed.
Lemma keep_start n p e k S : Inv S -> todo S = [] -> in_progress n p e k S -> ~ interrupted n p S -> Keep n p e k S.
Proof.
  intros H Et Hp Ni. constructor; [exact Hp| |rewrite Et; intros ev q []|rewrite Et; intros q r o _ _ []|rewrite Et; intros o []].
  intros (ev & x & q & Hx & Er & Hq & Hc). apply Ni. destruct (i_role _ H _ _ _ Hx Er) as [[K|K] _]; [elim Hc; exact K|].
  exists ev, x, [CInt q], q. split; [exact Hx|]. split; [exact K|]. split; [left; reflexivity|]. exact Hq.
Qed.
Lemma log_runs O t s env S S' : sim_runs O (sim_init t s env) S -> sim_runs O S S' -> exists old, log S' = log S ++ old.
Proof.
  intros R R'. induction R' as [|S S1 S2 R' IH Hs]; [exists []; rewrite app_nil_r; reflexivity|]. destruct (IH R) as (old & E). assert (R1 : sim_runs O (sim_init t s env) S1) by (eapply runs_app; eassumption).
  destruct (step_log O S1 S2 (inv2_runs _ _ _ _ _ R1) Hs) as (nw & En & _). exists (old ++ nw). rewrite En, E, app_assoc. reflexivity.
Qed.
Lemma keep_one O t s env S1 S2 n p e k : (forall g, env = Some g -> outside g) -> sim_runs O (sim_init t s env) S1 -> ~ requested n S1 -> ~ requested n S2 -> sim_step O S1 = Some S2 -> Keep n p e k S1 ->
  Keep n p e k S2 \/ ((exists new, log S2 = log S1 ++ new /\ In (etime e, e) new) /\ ((exists e' k', Keep n p e' k' S2) \/ gone p S2)).
Proof.
  intros He R N1 N2 Hs K. pose proof (sim_told O t s env S1 He R) as T. apply (keep_step O n p e k S1 S2); auto; try apply T. eapply step_ok; [apply T|exact Hs].
Qed.
Theorem keep_runs O t s env S S' n p e k : (forall g, env = Some g -> outside g) -> sim_runs O (sim_init t s env) S -> todo S = [] ->
  in_progress n p e k S -> ~ interrupted n p S -> sim_runs O S S' -> (forall X, sim_runs O S X -> sim_runs O X S' -> ~ requested n X) ->
  Keep n p e k S' \/ ((exists new, log S' = log S ++ new /\ In (etime e, e) new) /\ ((exists e' k', Keep n p e' k' S') \/ gone p S')).
Proof.
  intros He R Et Hp Ni R' Nr. induction R' as [|S S1 S2 R' IH Hs]; [left; apply keep_start; auto; exact (sim_ok _ _ _ _ _ R)|].
  assert (R1 : sim_runs O (sim_init t s env) S1) by (eapply runs_app; eassumption).
  assert (R2 : sim_runs O S S2) by (eapply sim_runs_step; eassumption).
  assert (N1 : ~ requested n S1) by (apply Nr; [exact R'|eapply sim_runs_step; [apply sim_runs_refl|exact Hs]]).
  assert (N2 : ~ requested n S2) by (apply Nr; [exact R2|apply sim_runs_refl]).
  destruct (step_log O S1 S2 (inv2_runs _ _ _ _ _ R1) Hs) as (nw & En & _). destruct (log_runs _ _ _ _ _ _ R R') as (old & Eo).
  destruct IH as [K|((new & El & Hi) & K)]; auto.
  - intros X A B. apply Nr; [exact A|eapply sim_runs_step; eassumption].
  - destruct (keep_one _ _ _ _ _ _ _ _ _ _ He R1 N1 N2 Hs K) as [K2|((new & El & Hi) & K2)]; [left; exact K2|right]. split; [|exact K2].
    exists (old ++ new). rewrite El, Eo, app_assoc. split; [reflexivity|]. apply in_or_app. right. exact Hi.
  - right. split; [exists (new ++ nw); rewrite En, El, app_assoc; split; [reflexivity|]; apply in_or_app; left; exact Hi|].
    destruct K as [(e' & k' & K)|K].
    + destruct (keep_one _ _ _ _ _ _ _ _ _ _ He R1 N1 N2 Hs K) as [K2|(_ & K2)]; [left; eauto|exact K2].
    + right. pose proof (sim_told O t s env S1 He R1) as T. eapply gone_step; [apply T|apply T|exact Hs|exact K].
Qed.
(** Until the process has ended nothing but its own time makes it go on. *)
Theorem request_undisturbed O t s env S S' n p e k o l : (forall g, env = Some g -> outside g) -> sim_runs O (sim_init t s env) S -> todo S = [] ->
  in_progress n p e k S -> ~ interrupted n p S -> sim_runs O S S' -> (forall X, sim_runs O S X -> sim_runs O X S' -> ~ requested n X) ->
  todo S' = WRun p o :: l -> exists v, o = Good v.
Proof.
  intros He R Et Hp Ni R' Nr Eo. assert (R2 : sim_runs O (sim_init t s env) S') by (eapply runs_app; eassumption).
  destruct (keep_runs _ _ _ _ _ _ _ _ _ _ He R Et Hp Ni R' Nr) as [K|(_ & [(e' & k' & K)|K])].
  - apply (ke_runp _ _ _ _ _ K). rewrite Eo. left. reflexivity.
  - apply (ke_runp _ _ _ _ _ K). rewrite Eo. left. reflexivity.
  - elim (gone_never_runs O s p S' o l (sim_told O t s env S' He R2) K Eo).
Qed.
(** The request is carried out; until then the simulation is not at its end and its time has not passed. *)
Theorem request_done O t s env S S' n p e k : (forall g, env = Some g -> outside g) -> sim_runs O (sim_init t s env) S -> todo S = [] ->
  in_progress n p e k S -> ~ interrupted n p S -> sim_runs O S S' -> (forall X, sim_runs O S X -> sim_runs O X S' -> ~ requested n X) ->
  (exists new, log S' = log S ++ new /\ In (etime e, e) new) \/ (in_progress n p e k S' /\ (now S' <= etime e)%Z /\ (dead S' = None -> sim_step O S' <> None)).
Proof.
  intros He R Et Hp Ni R' Nr. destruct (keep_runs _ _ _ _ _ _ _ _ _ _ He R Et Hp Ni R' Nr) as [K|[K _]]; [right|left; exact K].
  assert (R2 : sim_runs O (sim_init t s env) S') by (eapply runs_app; eassumption). pose proof (waits_runs _ _ _ _ _ He R2) as W. pose proof (sim_ok _ _ _ _ _ R2) as H.
  destruct K as [(r & Hr & Ec) _ _ _ Krp]. split; [exists r; auto|]. change (proc_at p S' = Some r) in Hr. pose proof (i_fits _ H _ _ Hr) as Ft. rewrite Ec in Ft. cbn [fits] in Ft. destruct Ft as (x0 & Hx0 & Er0).
  assert (Dr : due (pcode r) <> None) by (rewrite Ec; discriminate).
  destruct (W p r Hr Dr) as [(h & x & Hh & Eh & Hx & Hc)|[A|(o & A)]].
  - split.
    + destruct (i_heap _ H _ Hh) as (L & x1 & Hx1 & Hq). rewrite Eh in Hx1. assert (x1 = x0) by congruence. subst x1. rewrite (Hq _ Er0) in L. exact L.
    + intros Ed. unfold sim_step. rewrite Ed. destruct (todo S') as [|w l]; [|discriminate]. destruct (pop_min (heap S')) as [[q hh]|] eqn:Ep.
      * cbv zeta. match goal with |- (match ?b with _ => _ end) <> None => destruct b; discriminate end.
      * destruct (heap S') as [|y ys]; [destruct Hh|]. cbn [pop_min] in Ep. destruct (pop_min ys) as [[m rr]|]; [destruct (earlier y m)|]; discriminate.
  - split.
    + destruct (i_cbw _ H _ _ A) as (x1 & Hx1 & Hq). assert (x1 = x0) by congruence. subst x1. rewrite (Hq _ Er0). apply Z.le_refl.
    + intros Ed. unfold sim_step. rewrite Ed. destruct (todo S'); [destruct A|discriminate].
  - split.
    + destruct (Krp _ A) as (v & ->). rewrite (i_due _ H p r v (etime e) Hr A) by (rewrite Ec; reflexivity). apply Z.le_refl.
    + intros Ed. unfold sim_step. rewrite Ed. destruct (todo S'); [destruct A|discriminate].
Qed.

(** ** Nobody oversleeps *)
Definition intime (S : sim) : Prop := forall p r t, proc_at p S = Some r -> due (pcode r) = Some t -> (now S <= t)%Z.
Lemma awaits_time p r t S : Inv S -> proc_at p S = Some r -> due (pcode r) = Some t -> awaits p r S -> exists h, In h (heap S) /\ qtime h = t.
Proof.
  intros H Hr D (h & x & Hh & Eh & _). exists h. split; [exact Hh|]. destruct (i_heap _ H _ Hh) as (_ & x1 & Hx1 & Hq). apply Hq. pose proof (i_fits _ H _ _ Hr) as Ft.
  assert (Rt : role_at (ptarget r) (RTime t) S) by (destruct (pcode r); try discriminate; injection D as <-; exact Ft). destruct Rt as (x2 & Hx2 & E2). rewrite Eh in Hx1. congruence.
Qed.
Lemma work_prs O w l S : (forall q o, w <> WRun q o) -> prs (work_off O w (set_todo l S)) = prs S.
Proof.
  intros N. destruct w as [ev [q|q|c]|q o|ev]; cbn [work_off].
  - destruct (event_at ev (set_todo l S)) as [x|]; [|reflexivity]. destruct (evalue x) as [[v|t]|]; try reflexivity. cbn [prs set_todo]. unfold defuse. rewrite exec_event_prs. reflexivity.
  - destruct (ended q (set_todo l S)); [reflexivity|]. destruct (nth_error (prs (set_todo l S)) q); [|reflexivity]. cbv zeta. cbn [prs set_todo]. rewrite exec_event_prs. reflexivity.
  - unfold exec_. rewrite exec_check_prs. reflexivity.
  - elim (N q o eq_refl).
  - destruct (event_at ev (set_todo l S)) as [x|]; [|reflexivity]. destruct (evalue x) as [[v|t]|]; try reflexivity. destruct (edefused x); reflexivity.
Qed.
Lemma intime_step O S S' : Inv S -> Inv S' -> Waits S -> Waits S' -> intime S -> sim_step O S = Some S' -> intime S'.
Proof.
  intros H H' W W' T Hs p r t Hr D. destruct (todo S) as [|w l] eqn:Et.
  - assert (Hp : proc_at p S = Some r) by (destruct (pop_eq _ _ _ H Et Hs) as (q & h & e & _ & _ & _ & _ & Epr & _); unfold proc_at in *; rewrite <- Epr; exact Hr).
    assert (Dn : due (pcode r) <> None) by congruence.
    destruct (W p r Hp Dn) as [A|[A|(o & A)]]; [|rewrite Et in A; destruct A|rewrite Et in A; destruct A].
    destruct (awaits_time p r t S H Hp D A) as (h & Hh & <-). revert Hs. unfold sim_step. destruct (dead S); [discriminate|]. rewrite Et.
    destruct (pop_min (heap S)) as [[q hh]|] eqn:Ep; [|discriminate]. destruct (pop_min_ok _ _ _ Ep) as [Hq L]. cbv zeta.
    intros Hs. assert (En : now S' = qtime q).
    { destruct (event_at (qev q) _); injection Hs as <-; [|reflexivity]. unfold exec_, set_event, upd_. cbn [fst]. cbn [evs set_now set_queue]. destruct (nth_error (evs S) (qev q)); reflexivity. }
    rewrite En. destruct (pop_min_in _ _ _ _ Ep Hh) as [->|Hi]; [apply Z.le_refl|apply L; exact Hi].
  - assert (En : now S' = now S) by (unfold sim_step in Hs; destruct (dead S); [discriminate|]; rewrite Et in Hs; injection Hs as <-; apply work_clock; assumption).
    rewrite En. unfold sim_step in Hs. destruct (dead S); [discriminate|]. rewrite Et in Hs. injection Hs as <-.
    assert (B : (exists q o r0, w = WRun q o /\ proc_at q S = Some r0) \/ prs (work_off O w (set_todo l S)) = prs S).
    { destruct w as [ev c|q o|ev]; [right; apply work_prs; discriminate| |right; apply work_prs; discriminate].
      destruct (proc_at q S) as [r0|] eqn:Hq; [left; eauto|right]. cbn [work_off]. change (nth_error (prs (set_todo l S)) q) with (proc_at q S). rewrite Hq. reflexivity. }
    destruct B as [(q & o & r0 & -> & Hr0)|B]; [|apply (T p r t); [unfold proc_at in *; rewrite <- B; exact Hr|exact D]].
    destruct (run_keep O q o l r0 S (fun _ => False) "" False H Et Hr0) as [[[] _]|(K & r' & new & Hp & _ & Hnew & _ & _ & Haw & _)];
      try (intros; apply nobody_okn); try (left; apply nobody_okn); try (intros; intros X; exact X).
    pose proof Hr as Hr2. unfold proc_at in Hr2. rewrite Hp in Hr2. apply nth_error_app_or in Hr2. destruct Hr2 as [Hr2|(i & Hr2)].
    + destruct (Nat.eq_dec p q) as [->|N]; [|rewrite upd_other in Hr2 by exact N; exact (T p r t Hr2 D)].
      rewrite (upd_same _ _ _ _ Hr0) in Hr2. injection Hr2 as <-. assert (Dn : due (pcode r') <> None) by congruence.
      destruct (awaits_time _ _ _ _ H' Hr D (Haw Dn)) as (h & Hh & <-). rewrite <- En. apply (i_heap _ H' _ Hh).
    + apply nth_error_In in Hr2. rewrite Forall_forall in Hnew. destruct (Hnew _ Hr2) as [X _]. congruence.
Qed.
Lemma intime_init t s env : intime (sim_init t s env).
Proof.
  destruct (init_hush t s env) as (_ & _ & _ & _ & F). intros p r t0 Hr D. rewrite Forall_forall in F. unfold proc_at in Hr. apply nth_error_In in Hr. rewrite (F _ Hr) in D. discriminate.
Qed.
Lemma intime_runs O t s env S : (forall g, env = Some g -> outside g) -> sim_runs O (sim_init t s env) S -> intime S.
Proof.
  intros He H. remember (sim_init t s env) as S0 eqn:E. induction H as [|S0 S1 S2 R IH Hs]; [subst; apply intime_init|]. subst S0.
  assert (R2 : sim_runs O (sim_init t s env) S2) by (eapply sim_runs_step; eassumption).
  eapply intime_step; [exact (sim_ok _ _ _ _ _ R)|exact (sim_ok _ _ _ _ _ R2)|exact (waits_runs _ _ _ _ _ He R)|exact (waits_runs _ _ _ _ _ He R2)|apply IH; reflexivity|exact Hs].
Qed.
Lemma waits_for_due p e S : waits_for p e S -> exists r, proc_at p S = Some r /\ due (pcode r) = Some (etime e) /\ said (pcode r) = Some e.
Proof. intros (r & Hr & [(b & n & k & E)|E]); exists r; (split; [exact Hr|]); rewrite E; auto. Qed.
Theorem never_late O t s env S p e : (forall g, env = Some g -> outside g) -> sim_runs O (sim_init t s env) S -> waits_for p e S -> (now S <= etime e)%Z.
Proof. intros He R W. destruct (waits_for_due _ _ _ W) as (r & Hr & D & _). exact (intime_runs _ _ _ _ _ He R p r _ Hr D). Qed.
Theorem never_left O t s env S p e : (forall g, env = Some g -> outside g) -> sim_runs O (sim_init t s env) S -> sim_step O S = None -> dead S = None -> ~ waits_for p e S.
Proof.
  intros He R Hs Ed W. destruct (waits_for_due _ _ _ W) as (r & Hr & D & _). unfold sim_step in Hs. rewrite Ed in Hs. destruct (todo S) as [|w l] eqn:Et; [|discriminate].
  assert (Dn : due (pcode r) <> None) by congruence.
  destruct (waits_runs _ _ _ _ _ He R p r Hr Dn) as [(h & x & Hh & _)|[A|(o & A)]]; [|rewrite Et in A; destruct A|rewrite Et in A; destruct A].
  destruct (pop_min (heap S)) as [[q hh]|] eqn:Ep; [destruct (event_at (qev q) (set_now (qtime q) (set_queue (eid S) hh S))); discriminate|].
  destruct (heap S) as [|y ys]; [destruct Hh|]. cbn [pop_min] in Ep. destruct (pop_min ys) as [[m rr]|]; [destruct (earlier y m)|]; discriminate.
Qed.
Lemma fate_step O S S' p e : Inv2 S -> sim_step O S = Some S' -> waits_for p e S ->
  waits_for p e S' \/ (exists new, log S' = log S ++ new /\ In (etime e, e) new) \/ thrown_at p S.
Proof.
  intros [H Ha] Hs W. destruct (todo S) as [|w l] eqn:Et.
  - left. destruct W as (r & Hr & E). exists r. split; [|exact E]. destruct (pop_eq _ _ _ H Et Hs) as (q & h & x & _ & _ & _ & _ & Epr & _). rewrite Epr. exact Hr.
  - unfold sim_step in Hs. destruct (dead S); [discriminate|]. rewrite Et in Hs. injection Hs as <-.
    assert (B : (exists q o r0, w = WRun q o /\ proc_at q S = Some r0) \/ prs (work_off O w (set_todo l S)) = prs S).
    { destruct w as [ev c|q o|ev]; [right; apply work_prs; discriminate| |right; apply work_prs; discriminate].
      destruct (proc_at q S) as [r0|] eqn:Hq; [left; eauto|right]. cbn [work_off]. change (nth_error (prs (set_todo l S)) q) with (proc_at q S). rewrite Hq. reflexivity. }
    destruct B as [(q & o & r0 & -> & Hr0)|B]; [|left; destruct W as (r & Hr & E); exists r; rewrite B; auto].
    destruct (run_sum O q o l r0 S H Et Hr0) as (El & _ & _ & r' & new & Hp & _). cbv zeta in El, Hp.
    destruct (Nat.eq_dec p q) as [->|N].
    + right. destruct (waits_for_due _ _ _ W) as (r & Hr & D & Sa). assert (r = r0) by congruence. subst r0. destruct o as [v|t]; [left|right; exists t, l; exact Et].
      eexists. split; [exact El|]. unfold RunFacts.told. rewrite Sa. left. f_equal. apply (i_due _ H q r v (etime e) Hr); [rewrite Et; left; reflexivity|exact D].
    + left. destruct W as (r & Hr & E). exists r. split; [|exact E]. rewrite Hp, nth_error_app1; [rewrite upd_other by exact N; exact Hr|]. rewrite upd_length. apply nth_error_Some. congruence.
Qed.
(** It waits on, or the event has been logged at its time, or the process has got an exception. *)
Theorem fate O t s env S S' p e : sim_runs O (sim_init t s env) S -> sim_runs O S S' -> waits_for p e S ->
  waits_for p e S' \/ (exists new, log S' = log S ++ new /\ In (etime e, e) new) \/ exists X, sim_runs O S X /\ sim_runs O X S' /\ thrown_at p X.
Proof.
  intros R R' W. induction R' as [|S S1 S2 R' IH Hs]; [auto|]. assert (R1 : sim_runs O (sim_init t s env) S1) by (eapply runs_app; eassumption).
  destruct (IH R W) as [W1|[(new & El & Hi)|(X & A & B & C)]].
  - destruct (fate_step O S1 S2 p e (inv2_runs _ _ _ _ _ R1) Hs W1) as [W2|[(new & El & Hi)|Th]]; [auto| |].
    + right. left. destruct (log_runs _ _ _ _ _ _ R R') as (old & Eo). exists (old ++ new). rewrite El, Eo, app_assoc. split; [reflexivity|]. apply in_or_app. right. exact Hi.
    + right. right. exists S1. split; [exact R'|]. split; [|exact Th]. eapply sim_runs_step; [apply sim_runs_refl|exact Hs].
  - right. left. destruct (step_log O S1 S2 (inv2_runs _ _ _ _ _ R1) Hs) as (nw & En & _). exists (new ++ nw). rewrite En, El, app_assoc. split; [reflexivity|]. apply in_or_app. left. exact Hi.
  - right. right. exists X. split; [exact A|]. split; [|exact C]. eapply sim_runs_step; eassumption.
Qed.
