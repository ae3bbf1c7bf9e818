(** A key press in a simulation with an environment: the event of the environment is ready unless
    something has been announced at the same moment or the environment is over. *)
From Coq Require Import Lia.
From Verif Require Import Base BaseFacts Chunks DecMem Buffers BufferFacts Productions ProdSpec Environment Sim SimSpec SimFacts SerialFacts StoryFacts InterruptFacts Run RunSpec RunFacts QueueFacts KeepSpec KeepFacts KeepRuns KeySpec KeyFacts.
Local Open Scope string_scope.
Local Open Scope list_scope.
Local Open Scope nat_scope.

Section Env.
(** The process of the environment. *)
Variable P : nat.
(** A trigger key has been handed to it at the present moment. *)
Variable AA : Prop.
Local Notation ext := (ext AA).

(** ** What other processes do *)
Record near (S S' : sim) : Prop := MkNear {
  n_now : now S' = now S;
  n_eact : eact S' = eact S;
  n_heap : incl (heap S) (heap S');
  n_log : incl (log S) (log S');
  n_todo : incl (todo S) (todo S');
  n_todo' : forall w, In w (todo S') -> In w (todo S) \/ exists q o, w = WRun q o;
  n_proc : forall r, proc_at P S = Some r -> proc_at P S' = Some r;
  n_uniq : forall q r, proc_at q S' = Some r -> pkind r = Some GEnv -> exists r0, proc_at q S = Some r0 /\ pkind r0 = Some GEnv;
  n_ev : forall ev e, event_at ev S = Some e -> exists e', event_at ev S' = Some e' /\
           (evalue e <> None -> evalue e' <> None) /\ (evalue e = None -> evalue e' = None \/ at_now ev S') /\ (ecbs e' = None <-> ecbs e = None) /\
           (forall c, In c (cbs_of e) -> c = CResume P \/ (exists k, c = CCheck k) -> In c (cbs_of e'));
  n_heapv : forall q, In q (heap S') -> In q (heap S) \/ trig S' (qev q) = true;
  n_dist : dist S';
  n_trig : trig S' (eact S) = true -> trig S (eact S) = true \/ AA }.

Lemma trig_value S ev : trig S ev = true <-> exists e, event_at ev S = Some e /\ evalue e <> None.
Proof.
  unfold trig, triggered. destruct (event_at ev S) as [e|]; [|split; [discriminate|intros (e & [=] & _)]]. split.
  - intros H. exists e. split; [reflexivity|]. destruct (evalue e); discriminate.
  - intros (e' & [= <-] & N). destruct (evalue e); [reflexivity|elim N; reflexivity].
Qed.
Lemma near_trig S S' ev : near S S' -> trig S ev = true -> trig S' ev = true.
Proof. intros N H. apply trig_value in H. destruct H as (e & He & V). destruct (n_ev _ _ N _ _ He) as (e' & He' & V' & _). apply trig_value. exists e'. auto. Qed.
Lemma near_trans S1 S2 S3 : near S1 S2 -> near S2 S3 -> near S1 S3.
Proof.
  intros A B. constructor.
  - rewrite (n_now _ _ B). apply A.
  - rewrite (n_eact _ _ B). apply A.
  - eapply incl_tran; [apply A|apply B].
  - eapply incl_tran; [apply A|apply B].
  - eapply incl_tran; [apply A|apply B].
  - intros w Hw. destruct (n_todo' _ _ B w Hw) as [H|H]; [exact (n_todo' _ _ A w H)|auto].
  - intros r Hr. apply (n_proc _ _ B), (n_proc _ _ A), Hr.
  - intros q r Hr K. destruct (n_uniq _ _ B _ _ Hr K) as (r0 & H0 & K0). exact (n_uniq _ _ A _ _ H0 K0).
  - intros ev e He. destruct (n_ev _ _ A _ _ He) as (e1 & H1 & V1 & N1 & C1 & I1). destruct (n_ev _ _ B _ _ H1) as (e2 & H2 & V2 & N2 & C2 & I2).
    exists e2. split; [exact H2|]. split; [auto|]. split; [|split; [tauto|auto]]. intros En. destruct (N1 En) as [X|X]; [auto|].
    right. eapply at_now_grow; [apply B|apply B|exact X].
  - intros q Hq. destruct (n_heapv _ _ B q Hq) as [H|H]; [|auto]. destruct (n_heapv _ _ A q H) as [H'|H']; [auto|]. right. eapply near_trig; eassumption.
  - apply B.
  - intros T. rewrite <- (n_eact _ _ A) in T. destruct (n_trig _ _ B T) as [T1|T1]; [|auto]. rewrite (n_eact _ _ A) in T1. destruct (n_trig _ _ A T1) as [T2|T2]; auto.
Qed.
Lemma ext_near S S' : ext S S' -> near S S'.
Proof.
  intros X. constructor; try apply X.
  - rewrite (x_todo _ _ _ X). apply incl_refl.
  - rewrite (x_todo _ _ _ X). auto.
  - intros r. apply (ext_proc _ _ _ _ _ X).
  - intros q r Hr K. destruct (x_prs _ _ _ X) as (new & E & F). unfold proc_at in *. rewrite E in Hr. apply nth_error_app_or in Hr. destruct Hr as [Hr|(j & Hr)]; [eauto|].
    rewrite Forall_forall in F. elim (F r (nth_error_In _ _ Hr) K).
  - intros ev e He. destruct (x_ev _ _ _ X _ _ He) as (e' & He' & _ & I & V & N & C). exists e'. split; [exact He'|]. split; [|split; [exact N|split; [exact C|auto]]].
    intros Nv. destruct (evalue e) as [o|]; [|elim Nv; reflexivity]. rewrite (V o eq_refl). discriminate.
Qed.
(** The same up to the processes other than the environment, and [todo]. *)
Lemma near_same S S' : dist S -> now S' = now S -> eact S' = eact S -> pact S' = pact S -> acts S' = acts S -> heap S' = heap S -> log S' = log S -> evs S' = evs S ->
  incl (todo S) (todo S') -> (forall w, In w (todo S') -> In w (todo S) \/ exists q o, w = WRun q o) ->
  (forall r, proc_at P S = Some r -> proc_at P S' = Some r) -> (forall q r, proc_at q S' = Some r -> exists r0, proc_at q S = Some r0 /\ pkind r0 = pkind r) -> near S S'.
Proof.
  intros D E1 E2 E3 E4 E5 E6 E7 I1 I2 Pr Un. assert (Ev : forall i, event_at i S' = event_at i S) by (intros i; unfold event_at; rewrite E7; reflexivity).
  constructor; auto.
  - rewrite E5. apply incl_refl.
  - rewrite E6. apply incl_refl.
  - intros q r Hr K. destruct (Un _ _ Hr) as (r0 & H0 & K0). exists r0. split; [exact H0|congruence].
  - intros ev e He. exists e. rewrite Ev. repeat split; auto.
  - rewrite E5. auto.
  - destruct D as [A B C]. constructor; rewrite ?E2, ?E3, ?E4, ?E7; auto.
  - unfold trig. rewrite Ev. auto.
Qed.
Lemma near_set_prc q f S : dist S -> q <> P -> (forall r, pkind (f r) = pkind r) -> near S (set_prc q f S).
Proof.
  intros D N Hf. apply near_same; auto; try (unfold set_prc; destruct (nth_error (prs S) q); reflexivity).
  - unfold set_prc; destruct (nth_error (prs S) q); apply incl_refl.
  - unfold set_prc; destruct (nth_error (prs S) q); auto.
  - intros r Hr. rewrite set_prc_other by auto. exact Hr.
  - intros i r Hr. unfold set_prc in Hr. destruct (nth_error (prs S) q) as [r0|] eqn:Hq; [|eauto]. unfold proc_at in *. cbn [prs set_prs] in Hr.
    destruct (Nat.eq_dec i q) as [->|Ni]; [rewrite (upd_same _ _ _ _ Hq) in Hr; injection Hr as <-; exists r0; rewrite Hf; auto|rewrite upd_other in Hr by exact Ni; eauto].
Qed.
Lemma near_add_run q o S : dist S -> near S (set_todo (WRun q o :: todo S) S).
Proof. intros D. apply near_same; auto; [apply incl_tl, incl_refl|intros w [<-|Hw]; eauto|eauto]. Qed.
Lemma ext_value (o : outcome) ev S : dist S -> ext S (exec_ (match o with Bad _ => defuse ev | _ => ret tt end) S).
Proof. intros D. destruct o; [apply km_ret; exact D|apply km_defuse; exact D]. Qed.
Lemma near_run_value q o ev S : dist S -> near S (set_todo (WRun q o :: todo S) (exec_ (match o with Bad _ => defuse ev | _ => ret tt end) S)).
Proof.
  intros D. pose proof (ext_value o ev S D) as X. eapply near_trans; [apply ext_near; exact X|]. rewrite <- (x_todo _ _ _ X). apply near_add_run. apply X.
Qed.
Lemma near_hand_over q ev S : dist S -> q <> P -> near S (hand_over q ev S).
Proof.
  intros D N. unfold hand_over. destruct (event_at ev S) as [e|]; [|apply ext_near, ext_refl; exact D].
  assert (A : near S (set_prc q (fun r => MkPrc (pkind r) (pown r) ev (pcode r)) (exec_ (add_cb ev (CResume q)) S))).
  { pose proof (km_add_cb AA ev (CResume q) S D) as X. eapply near_trans; [apply ext_near; exact X|]. apply near_set_prc; auto. apply X. }
  destruct (ecbs e); [exact A|]. destruct (evalue e) as [o|]; [|exact A]. apply near_run_value. exact D.
Qed.
(** An event other than that of the environment gets a value. *)
Lemma near_give ev o S : dist S -> ev <> eact S -> ev < List.length (evs S) ->
  near S (exec_ (set_event ev (fun e => MkEvt (erole e) (Some o) (edefused e) (ecbs e)) ;! schedule NORMAL 0 ev) S).
Proof.
  intros D N L. unfold exec_, bind, set_event, schedule, upd_. cbn [fst snd]. destruct (nth_error (evs S) ev) as [e|] eqn:He; [|apply nth_error_None in He; lia].
  set (f := MkEvt (erole e) (Some o) (edefused e) (ecbs e)). set (S' := set_queue _ _ _).
  assert (At : forall i, event_at i S' = if Nat.eqb i ev then Some f else event_at i S).
  { intros i. unfold event_at, S'. cbn [evs set_evs set_queue]. destruct (Nat.eqb_spec i ev) as [->|Ni]; [apply (upd_same _ _ _ e); exact He|apply upd_other; exact Ni]. }
  constructor; try reflexivity; try apply incl_refl; auto.
  - intros q Hq. cbn [heap set_queue S']. apply in_or_app. auto.
  - intros q r Hr K. exists r. auto.
  - intros i x Hx. rewrite At. destruct (Nat.eqb_spec i ev) as [->|Ni]; [|exists x; repeat split; auto].
    assert (x = e) by (unfold event_at in Hx; congruence). subst x. exists f. split; [reflexivity|]. split; [discriminate|]. split; [|split; [reflexivity|auto]]. intros _. right.
    eexists. split; [cbn [heap set_queue S']; apply in_or_app; right; left; reflexivity|]. split; [reflexivity|]. cbn [qtime now set_queue set_evs]. change (now S') with (now S). lia.
  - intros q Hq. cbn [heap set_queue S'] in Hq. apply in_app_or in Hq. destruct Hq as [Hq|[<-|[]]]; [auto|]. right. unfold trig. cbn [qev]. rewrite At, Nat.eqb_refl. reflexivity.
  - revert D. apply dist_same; try reflexivity; [cbn [evs set_evs S' set_queue]; rewrite upd_length; lia|exists []; rewrite app_nil_r; reflexivity].
  - unfold trig. rewrite At. destruct (Nat.eqb_spec (eact S) ev) as [Eq|Ne]; [elim N; auto|auto].
Qed.
Lemma near_end_process q r o S : dist S -> q <> P -> proc_at q S = Some r -> pown r <> eact S -> pown r < List.length (evs S) -> near S (end_process q o S).
Proof.
  intros D N Hr No L. unfold end_process. unfold own_event. unfold proc_at in Hr. rewrite Hr.
  pose proof (near_set_prc q (fun r => MkPrc (pkind r) (pown r) (ptarget r) KEnd) S D N (fun _ => eq_refl)) as X. eapply near_trans; [exact X|].
  apply near_give; [apply X|rewrite (n_eact _ _ X); exact No|]. unfold set_prc. destruct (nth_error (prs S) q); exact L.
Qed.

(** ** The invariant *)
Definition soon (r : prc) (S : sim) : Prop :=
  (exists e, event_at (ptarget r) S = Some e /\ evalue e <> None /\ In (CResume P) (cbs_of e) /\ at_now (ptarget r) S) \/
  In (WCb (ptarget r) (CResume P)) (todo S) \/ exists o, In (WRun P o) (todo S).
Definition held (r : prc) (S : sim) : Prop :=
  (exists e, event_at (ptarget r) S = Some e /\ evalue e = None /\ In (CResume P) (cbs_of e)) /\
  ((exists e, event_at (eact S) S = Some e /\ In (CCheck (ptarget r)) (cbs_of e)) \/ In (WCb (eact S) (CCheck (ptarget r))) (todo S)).
Definition live (r : prc) (S : sim) : Prop :=
  match pcode r with KEnd => True | KEnv0 _ => soon r S | KEnvWait _ _ => soon r S \/ held r S | _ => False end.
Record base (S : sim) : Prop := MkBase {
  b_dist : dist S;
  b_heap : forall q, In q (heap S) -> trig S (qev q) = true;
  b_cb : forall ev c, In (WCb ev c) (todo S) -> trig S ev = true;
  b_uniq : forall q r, proc_at q S = Some r -> pkind r = Some GEnv -> q = P;
  b_now : forall e, event_at (eact S) S = Some e -> evalue e <> None -> ecbs e <> None -> at_now (eact S) S }.
Definition calmly (C : Prop) (r : prc) (S : sim) : Prop := trig S (eact S) = true -> pcode r = KEnd \/ C.
Definition MainC (C : Prop) (S : sim) : Prop := base S /\ exists r, proc_at P S = Some r /\ pkind r = Some GEnv /\ live r S /\ calmly C r S.
Local Notation Main := (MainC AA).

Lemma near_base S S' : base S -> near S S' -> base S'.
Proof.
  intros B N. constructor.
  - apply N.
  - intros q Hq. destruct (n_heapv _ _ N q Hq) as [H|H]; [|exact H]. eapply near_trig; [exact N|]. apply (b_heap _ B). exact H.
  - intros ev c Hc. destruct (n_todo' _ _ N _ Hc) as [H|(q & o & H)]; [|discriminate]. eapply near_trig; [exact N|]. exact (b_cb _ B _ _ H).
  - intros q r Hr K. destruct (n_uniq _ _ N _ _ Hr K) as (r0 & H0 & K0). exact (b_uniq _ B _ _ H0 K0).
  - intros e' He' V C. rewrite (n_eact _ _ N) in *. destruct (event_at (eact S) S) as [e|] eqn:He; [|apply nth_error_None in He; pose proof (d_eact _ (b_dist _ B)); lia].
    destruct (n_ev _ _ N _ _ He) as (e1 & H1 & _ & Nv & Cb & _). assert (e1 = e') by congruence. subst e1. destruct (evalue e) as [o|] eqn:Ev.
    + eapply at_now_grow; [apply N|apply N|]. apply (b_now _ B e He); [rewrite Ev; discriminate|]. intros Z. apply C. apply Cb. exact Z.
    + destruct (Nv eq_refl) as [Z|Z]; [elim (V Z)|exact Z].
Qed.
Lemma near_calmly r S S' : near S S' -> calmly AA r S -> calmly AA r S'.
Proof.
  intros N C T. rewrite (n_eact _ _ N) in T. destruct (n_trig _ _ N T) as [T1|T1]; [|auto]. exact (C T1).
Qed.
Lemma near_soon r S S' : near S S' -> soon r S -> soon r S'.
Proof.
  intros N [(e & He & V & I & A)|[H|(o & H)]].
  - left. destruct (n_ev _ _ N _ _ He) as (e' & He' & V' & _ & _ & I'). exists e'. split; [exact He'|]. split; [auto|]. split; [apply I'; auto|]. eapply at_now_grow; [apply N|apply N|exact A].
  - right. left. apply (n_todo _ _ N). exact H.
  - right. right. exists o. apply (n_todo _ _ N). exact H.
Qed.
Lemma near_live r S S' : near S S' -> live r S -> live r S'.
Proof.
  intros N. unfold live. destruct (pcode r); auto; [apply near_soon; exact N|]. intros [H|[(e & He & V & I) A]]; [left; eapply near_soon; eassumption|].
  destruct (n_ev _ _ N _ _ He) as (e' & He' & _ & Nv & _ & I'). assert (Ic : In (CResume P) (cbs_of e')) by (apply I'; auto).
  destruct (evalue e') as [o|] eqn:Ev.
  - left. left. exists e'. split; [exact He'|]. split; [rewrite Ev; discriminate|]. split; [exact Ic|]. destruct (Nv V) as [Z|Z]; [discriminate|exact Z].
  - right. split; [exists e'; auto|]. rewrite (n_eact _ _ N). destruct A as [(x & Hx & Ix)|A]; [|right; apply (n_todo _ _ N); exact A].
    left. destruct (n_ev _ _ N _ _ Hx) as (x' & Hx' & _ & _ & _ & Ix'). exists x'. split; [exact Hx'|]. apply Ix'; eauto.
Qed.
Lemma near_main S S' : Main S -> near S S' -> Main S'.
Proof.
  intros [B (r & Hr & K & L & C)] N. split; [eapply near_base; eassumption|]. exists r. split; [apply N; exact Hr|]. split; [exact K|]. split; [eapply near_live; eassumption|eapply near_calmly; eassumption].
Qed.

(** ** Steps *)

Lemma base_tail S w l : todo S = w :: l -> base S -> base (set_todo l S).
Proof.
  intros E [B1 B2 B3 B4 B5]. constructor; auto.
  - destruct B1. constructor; auto.
  - intros ev c Hc. apply (B3 ev c). rewrite E. right. exact Hc.
Qed.
Lemma live_tail S w l r : todo S = w :: l -> w <> WCb (ptarget r) (CResume P) -> (forall o, w <> WRun P o) -> w <> WCb (eact S) (CCheck (ptarget r)) -> live r S -> live r (set_todo l S).
Proof.
  intros E N1 N2 N3. unfold live. assert (So : soon r S -> soon r (set_todo l S)).
  { intros [H|[H|(o & H)]]; [left; exact H| |]; rewrite E in H; (destruct H as [H|H]; [first [elim (N1 H)|elim (N2 _ H)]|]); right; [left; exact H|right; exists o; exact H]. }
  destruct (pcode r); auto. intros [H|[A B]]; [auto|]. right. split; [exact A|]. destruct B as [B|B]; [left; exact B|]. rewrite E in B. destruct B as [B|B]; [elim (N3 B)|right; exact B].
Qed.
Lemma main_tail S w l : todo S = w :: l -> (forall r, proc_at P S = Some r -> w <> WCb (ptarget r) (CResume P) /\ w <> WCb (eact S) (CCheck (ptarget r))) -> (forall o, w <> WRun P o) -> Main S -> Main (set_todo l S).
Proof.
  intros E N1 N2 [B (r & Hr & K & L & C)]. split; [eapply base_tail; eassumption|]. exists r. split; [exact Hr|]. split; [exact K|]. split; [|exact C]. destruct (N1 r Hr). eapply live_tail; eassumption.
Qed.

(** An event is taken from the queue. *)
Lemma main_pop S q h e : Inv S -> Main S -> todo S = [] -> pop_min (heap S) = Some (q, h) -> event_at (qev q) S = Some e ->
  MainC (AA /\ qtime q = now S) (set_todo (map (WCb (qev q)) (cbs_of e) ++ [WEnd (qev q)])
    (set_evs (upd (evs S) (qev q) (MkEvt (erole e) (evalue e) (edefused e) None)) (set_now (qtime q) (set_queue (eid S) h S)))).
Proof.
  intros H [B (r & Hr & K & L & C)] Et Ep He. set (S' := set_todo _ _). destruct (pop_min_split _ _ _ Ep) as (l1 & l2 & El & Eh & Min).
  assert (Hq : In q (heap S)) by (rewrite El; apply in_or_app; cbn; auto). destruct (i_heap _ H _ Hq) as (Lq & _). pose proof (b_heap _ B _ Hq) as Tq.
  set (e' := MkEvt (erole e) (evalue e) (edefused e) None) in *.
  assert (At : forall i, event_at i S' = if Nat.eqb i (qev q) then Some e' else event_at i S).
  { intros i. unfold event_at, S'. cbn [evs set_evs set_todo]. destruct (Nat.eqb_spec i (qev q)) as [->|Ni]; [apply (upd_same _ _ _ e); exact He|apply upd_other; exact Ni]. }
  assert (Tr : forall i, trig S' i = trig S i) by (intros i; unfold trig; rewrite At; destruct (Nat.eqb_spec i (qev q)) as [->|Ni]; [rewrite He; reflexivity|reflexivity]).
  assert (Same : forall i, at_now i S -> qtime q = now S).
  { intros i (x & Hx & _ & Tx). pose proof (Min x Hx) as M. unfold before in M. lia. }
  assert (Stay : forall i, i <> qev q -> at_now i S -> at_now i S').
  { intros i Ni A. pose proof (Same i A) as Eq. destruct A as (x & Hx & Ex & Tx). exists x. change (heap S') with h. change (now S') with (qtime q). split; [|split; [exact Ex|congruence]].
    destruct (pop_min_in _ _ _ _ Ep Hx) as [->|X]; [elim Ni; auto|exact X]. }
  assert (So : soon r S -> soon r S' /\ qtime q = now S).
  { intros [(x & Hx & V & I & A)|[X|(o & X)]]; [|rewrite Et in X; destruct X|rewrite Et in X; destruct X]. split; [|exact (Same _ A)].
    destruct (Nat.eq_dec (ptarget r) (qev q)) as [Eq|Ni].
    - right. left. rewrite Eq in Hx |- *. assert (x = e) by congruence. subst x. cbn [todo S' set_todo]. apply in_or_app. left. apply in_map. exact I.
    - left. exists x. rewrite At. destruct (Nat.eqb_spec (ptarget r) (qev q)) as [Z|_]; [elim (Ni Z)|]. split; [exact Hx|]. split; [exact V|]. split; [exact I|]. apply Stay; assumption. }
  split; [constructor|exists r; split; [exact Hr|split; [exact K|]]].
  - pose proof (b_dist _ B) as D. revert D. apply dist_same; try reflexivity; [cbn [evs set_evs S' set_todo]; rewrite upd_length; lia|exists []; rewrite app_nil_r; reflexivity].
  - intros x Hx. rewrite Tr. apply (b_heap _ B). change (heap S') with h in Hx. rewrite El. rewrite Eh in Hx. apply in_app_or in Hx. apply in_or_app. cbn. tauto.
  - intros ev c Hc. rewrite Tr. cbn [todo S' set_todo] in Hc. apply in_app_or in Hc. destruct Hc as [Hc|[Hc|[]]]; [|discriminate]. apply in_map_iff in Hc. destruct Hc as (c' & [= <- _] & _). exact Tq.
  - exact (b_uniq _ B).
  - change (eact S') with (eact S). intros x Hx V Nc. rewrite At in Hx. destruct (Nat.eqb_spec (eact S) (qev q)) as [Z|Nz]; [injection Hx as <-; elim Nc; reflexivity|].
    apply Stay; [exact Nz|]. exact (b_now _ B x Hx V Nc).
  - assert (Lv : live r S' /\ (pcode r <> KEnd -> trig S (eact S) = true -> qtime q = now S)).
    { revert L. unfold live. destruct (pcode r); intros L; try contradiction.
      - destruct (So L) as [X1 X2]. auto.
      - destruct L as [L|[(x & Hx & V & I) A]]; [destruct (So L) as [X1 X2]; auto|]. assert (Ni : ptarget r <> qev q) by (intros Eq; apply trig_value in Tq; destruct Tq as (y & Hy & Vy); rewrite <- Eq in Hy; congruence).
        destruct A as [(y & Hy & Iy)|A]; [|rewrite Et in A; destruct A]. split.
        + right. split; [exists x; rewrite At; destruct (Nat.eqb_spec (ptarget r) (qev q)) as [Z|_]; [elim (Ni Z)|auto]|]. change (eact S') with (eact S). rewrite At. destruct (Nat.eqb_spec (eact S) (qev q)) as [Z|Nz].
          * right. rewrite Z in Hy |- *. assert (y = e) by congruence. subst y. cbn [todo S' set_todo]. apply in_or_app. left. apply in_map. exact Iy.
          * left. exists y. auto.
        + intros _ T. apply (Same (eact S)). apply trig_value in T. destruct T as (z & Hz & Vz). assert (z = y) by congruence. subst z. apply (b_now _ B y Hy Vz). intros Z. unfold cbs_of in Iy. rewrite Z in Iy. destruct Iy.
      - split; [exact I|]. intros Z. elim Z. reflexivity. }
    destruct Lv as [Lv Tm]. split; [exact Lv|]. intros T. change (eact S') with (eact S) in T. rewrite Tr in T.
    assert (Dk : pcode r = KEnd \/ pcode r <> KEnd) by (destruct (pcode r); auto; right; discriminate). destruct Dk as [Dk|Dk]; [auto|]. destruct (C T) as [X|X]; [auto|]. right.
    split; [exact X|exact (Tm Dk T)].
Qed.
Lemma trig_check c ev S : c < List.length (evs S) -> ev < List.length (evs S) -> trig (fst (check c ev S)) c = true.
Proof.
  intros L Lv. unfold check, bind, get. destruct (trig S c) eqn:Et; [exact Et|]. destruct (event_at ev S) as [e|] eqn:He; [|apply nth_error_None in He; lia].
  assert (Set_ : forall (o : outcome) S1, c < List.length (evs S1) -> trig (set_queue (Datatypes.S (eid S1)) (heap S1 ++ [MkQ (now S1 + 0) NORMAL (eid S1) c])
             (match nth_error (evs S1) c with Some e => set_evs (upd (evs S1) c (MkEvt (erole e) (Some o) (edefused e) (ecbs e))) S1 | None => S1 end)) c = true).
  { intros o S1 L1. destruct (nth_error (evs S1) c) as [x|] eqn:Hx; [|apply nth_error_None in Hx; lia]. unfold trig, event_at. cbn [evs set_queue set_evs]. rewrite (upd_same _ _ _ _ Hx). reflexivity. }
  assert (Su : trig (fst (succeed c S)) c = true).
  { unfold succeed, bind, get. rewrite Et. unfold set_event, schedule, upd_. cbn [fst]. pose proof (Set_ (Good XUnit) S L) as X. destruct (nth_error (evs S) c); exact X. }
  destruct (evalue e) as [[v|t]|]; try exact Su. unfold defuse, set_event, schedule, upd_. cbn [fst].
  match goal with |- context [match nth_error (evs S) ev with _ => _ end] => set (S1 := match nth_error (evs S) ev with Some e0 => _ | None => S end) end.
  assert (L1 : c < List.length (evs S1)) by (unfold S1; destruct (nth_error (evs S) ev); cbn [evs set_evs]; rewrite ?upd_length; exact L).
  pose proof (Set_ (Bad t) S1 L1) as X. destruct (nth_error (evs S1) c); exact X.
Qed.
Lemma live_soon r S S' : live r S -> soon r S' -> live r S'.
Proof. unfold live. destruct (pcode r); auto. Qed.
Lemma near_remove q i S : dist S -> q <> P ->
  near S (exec_ (set_event i (fun e => MkEvt (erole e) (evalue e) (edefused e) (match ecbs e with Some l => Some (remove_cb (CResume q) l) | None => None end))) S).
Proof.
  intros D N. unfold exec_, set_event, upd_. cbn [fst]. destruct (nth_error (evs S) i) as [e|] eqn:He; [|apply ext_near, ext_refl; exact D].
  set (f := MkEvt _ _ _ _). set (S' := set_evs _ _).
  assert (At : forall k, event_at k S' = if Nat.eqb k i then Some f else event_at k S).
  { intros k. unfold event_at, S'. cbn [evs set_evs]. destruct (Nat.eqb_spec k i) as [->|Ni]; [apply (upd_same _ _ _ e); exact He|apply upd_other; exact Ni]. }
  constructor; try reflexivity; try apply incl_refl; auto.
  - intros q' r Hr K. exists r. auto.
  - intros k x Hx. rewrite At. destruct (Nat.eqb_spec k i) as [->|Ni]; [|exists x; repeat split; auto].
    assert (x = e) by (unfold event_at in Hx; congruence). subst x. exists f. split; [reflexivity|]. split; [auto|]. split; [auto|]. unfold f, cbs_of. cbn [ecbs]. destruct (ecbs e) as [l|]; [|split; [reflexivity|auto]].
    split; [split; discriminate|]. intros c Hc Hk. apply remove_other; [exact Hc|]. destruct Hk as [->|(k & ->)]; [intros [= Z]; elim N; auto|discriminate].
  - revert D. apply dist_same; try reflexivity; [cbn [evs set_evs S']; rewrite upd_length; lia|exists []; rewrite app_nil_r; reflexivity].
  - unfold trig. rewrite At. destruct (Nat.eqb_spec (eact S) i) as [Eq|Ne]; [|auto]. intros Z. left. unfold event_at. rewrite Eq, He. exact Z.
Qed.

(** ** The process of the environment *)
Lemma base_set_prc q f S : (forall r, pkind (f r) = pkind r) -> base S -> base (set_prc q f S).
Proof.
  intros Hf B. unfold set_prc. destruct (nth_error (prs S) q) as [r0|] eqn:Hq; [|exact B]. destruct B as [[D1 D2 D3] B2 B3 B4 B5]. constructor; auto; [constructor; auto|].
  intros i r Hr K. unfold proc_at in Hr. cbn [prs set_prs] in Hr. destruct (Nat.eq_dec i q) as [->|Ni]; [rewrite (upd_same _ _ _ _ Hq) in Hr; injection Hr as <-; apply (B4 q r0 Hq); rewrite <- K; symmetry; apply Hf|].
  rewrite upd_other in Hr by exact Ni. exact (B4 _ _ Hr K).
Qed.
Record pre (r : prc) (S : sim) : Prop := MkPre {
  p_base : base S;
  p_proc : proc_at P S = Some r;
  p_own : pown r <> eact S /\ pown r < List.length (evs S);
  p_calm : trig S (eact S) = true -> AA }.
Definition ready (ev : nat) (S : sim) : Prop := exists e, event_at ev S = Some e /\ ecbs e <> None /\ (evalue e <> None -> at_now ev S) /\
  (evalue e = None -> exists x, event_at (eact S) S = Some x /\ In (CCheck ev) (cbs_of x)).
Definition post (r : prc) (x : sim * (nxt + fault)) : Prop :=
  pre r (fst x) /\ match snd x with inl (NWait c ev) => (exists pro g, c = KEnvWait pro g) /\ ready ev (fst x) | _ => True end.
Lemma pre_ext r S S' : pre r S -> ext S S' -> pre r S'.
Proof.
  intros [B Hr [O1 O2] C] X. constructor.
  - eapply near_base; [exact B|apply ext_near; exact X].
  - eapply ext_proc; eassumption.
  - rewrite (x_eact _ _ _ X). pose proof (x_len _ _ _ X). split; [exact O1|lia].
  - intros T. rewrite (x_eact _ _ _ X) in T. destruct (x_trig _ _ _ X T) as [T1|T1]; [|exact T1]. auto.
Qed.
Lemma ext_watch c ev S : c < List.length (evs S) -> c <> eact S -> dist S -> ext S (fst (watch c ev S)).
Proof. intros L N D. unfold watch, bind, get. destruct (processed ev S); [apply km_check; assumption|apply km_add_cb; exact D]. Qed.
Lemma check_none_throws c ev S : exists u, snd (check c ev S) = inl u.
Proof.
  unfold check, bind, get. destruct (trig S c) eqn:E; [exists tt; reflexivity|]. destruct (event_at ev S) as [e|]; [|exists tt; reflexivity].
  destruct (evalue e) as [[v|t]|]; [|exists tt; reflexivity|]; (unfold succeed, bind, get; rewrite E; exists tt; reflexivity).
Qed.
Lemma watch_eq c ev S : watch c ev S = (fst (watch c ev S), inl tt).
Proof.
  unfold watch, bind, get. destruct (processed ev S); [|reflexivity]. destruct (check_none_throws c ev S) as ([] & E). rewrite <- E. destruct (check c ev S); reflexivity.
Qed.
Lemma any_of_ready a S : dist S -> base S -> ext S (fst (any_of a (eact S) S)) /\ exists c, snd (any_of a (eact S) S) = inl c /\ ready c (fst (any_of a (eact S) S)).
Proof.
  intros D B. pose proof (km_new AA RCond S D) as X1. set (S1 := fst (new_event RCond S)) in *. set (c := List.length (evs S)).
  assert (Ea : any_of a (eact S) S = (fst (watch c (eact S) (fst (watch c a S1))), inl c)).
  { unfold any_of, bind. change (new_event RCond S) with (S1, @inl nat fault c). cbv iota. rewrite (watch_eq c a S1). cbv iota. rewrite (watch_eq c (eact S) (fst (watch c a S1))). reflexivity. }
  rewrite Ea. cbn [fst snd].
  assert (Hc : event_at c S1 = Some (MkEvt RCond None false (Some []))) by (unfold event_at, S1, new_event, mk_event; cbn [fst evs set_evs]; apply nth_snoc_new).
  assert (Lc : c < List.length (evs S1)) by (apply nth_error_Some; unfold event_at in Hc; congruence).
  assert (Nc : c <> eact S1) by (rewrite (x_eact _ _ _ X1); pose proof (d_eact _ D); unfold c; lia). clear Ea. clearbody c S1.
  pose proof (ext_watch c a S1 Lc Nc (x_dist _ _ _ X1)) as X2. set (S2 := fst (watch c a S1)) in *.
  assert (L2 : c < List.length (evs S2)) by (pose proof (x_len _ _ _ X2); lia). assert (N2 : c <> eact S2) by (rewrite (x_eact _ _ _ X2); exact Nc).
  pose proof (ext_watch c (eact S) S2 L2 N2 (x_dist _ _ _ X2)) as X3.
  assert (E2 : eact S2 = eact S) by (rewrite (x_eact _ _ _ X2); apply X1).
  split; [eapply ext_trans; [exact X1|eapply ext_trans; [exact X2|exact X3]]|]. exists c. split; [reflexivity|].
  pose proof (ext_trans _ _ _ _ X2 X3) as X23. destruct (x_ev _ _ _ X23 _ _ Hc) as (e & He & _ & _ & _ & Nv & Cb). exists e. split; [exact He|]. split; [intros Z; apply Cb in Z; discriminate|].
  split; [intros V; destruct (Nv eq_refl) as [Z|Z]; [elim (V Z)|exact Z]|]. intros V.
  assert (Lb : eact S < List.length (evs S2)) by (rewrite <- E2; apply X2). rewrite (x_eact _ _ _ X3), E2.
  revert He X3 X23. unfold watch, bind, get. destruct (processed (eact S) S2) eqn:Ep.
  - intros He. assert (T : trig (fst (check c (eact S) S2)) c = true) by (apply trig_check; assumption). unfold trig in T. rewrite He in T. unfold triggered in T. rewrite V in T. discriminate.
  - intros _ _ _. unfold add_cb, set_event, upd_. cbn [fst]. destruct (nth_error (evs S2) (eact S)) as [x|] eqn:Hx; [|apply nth_error_None in Hx; lia].
    unfold processed, event_at in Ep. rewrite Hx in Ep. unfold event_at. cbn [evs set_evs]. rewrite (upd_same _ _ _ _ Hx). eexists. split; [reflexivity|]. unfold cbs_of. cbn [ecbs]. destruct (ecbs x) as [l|]; [|discriminate].
    apply in_or_app. right. left. reflexivity.
Qed.
Lemma env_loop_post r e g S : pre r S -> post r (env_loop e g S).
Proof.
  intros H. unfold env_loop. unfold bind at 1. assert (X : ext S (fst (spawn (KEnvP0 e) S))) by (apply km_spawn; [discriminate|apply H]). destruct (spawn (KEnvP0 e) S) as [S1 [pro|t]]; cbn [fst] in X.
  2: { split; [|exact I]. eapply pre_ext; [exact H|exact X]. }
  assert (H1 : pre r S1) by (eapply pre_ext; [exact H|exact X]).
  unfold bind, get. destruct (any_of_ready (own_event pro S1) S1 (b_dist _ (p_base _ _ H1)) (p_base _ _ H1)) as (X2 & c & Ec & Rc).
  destruct (any_of (own_event pro S1) (eact S1) S1) as [S2 x]. cbn [fst snd] in *. rewrite Ec. split; [eapply pre_ext; eassumption|]. split; [eauto|exact Rc].
Qed.
Lemma pre_ss r s S : pre r S -> pre r (set_ss s S).
Proof.
  intros H. eapply pre_ext; [exact H|]. apply ext_same; try reflexivity; [|apply incl_refl]. destruct (b_dist _ (p_base _ _ H)). constructor; auto.
Qed.
Lemma env_next_post r g k S : pre r S -> (forall o S', pre r S' -> post r (k o S')) -> post r (env_next g k S).
Proof.
  intros H Hk. unfold env_next. destruct (resume g (ss S)) as [[s' ns] o]. pose proof (pre_ss r s' S H) as H'. destruct o; try (split; [exact H'|exact I]); apply Hk; exact H'.
Qed.
Lemma go_on_post O r o S : pre r S -> pkind r = Some GEnv -> (pcode r = KEnd \/ pkind r = kind_of (pcode r)) -> post r (go_on O P (pcode r) o S).
Proof.
  intros H K Hk. rewrite K in Hk. assert (T : forall t, post r ((throw t : M nxt) S)) by (intros t; split; [exact H|exact I]).
  destruct (pcode r); try (destruct Hk as [Hk|Hk]; discriminate).
  - destruct o as [v|t]; [|destruct t; apply T]. cbn [go_on]. apply env_next_post; [exact H|]. intros [[e g']|] S' H'; [apply env_loop_post; exact H'|split; [exact H'|exact I]].
  - destruct o as [v|t]; [|destruct t; apply T]. cbn [go_on]. unfold bind at 1. unfold get at 1.
    assert (Rest : forall S', pre r S' -> post r (env_next g (fun r0 => match r0 with None => ret (NDone XUnit) | Some (e, g') => let! S0 := get in auto_all P (snames (ss S0)) ;! env_loop e g' end) S')).
    { intros S' H'. apply env_next_post; [exact H'|]. intros [[e g']|] S2 H2; [|split; [exact H2|exact I]]. unfold bind, get.
      pose proof (km_auto_all AA P (snames (ss S2)) S2 (b_dist _ (p_base _ _ H2))) as X. destruct (auto_all P (snames (ss S2)) S2) as [S3 [u|t]]; cbn [fst] in X.
      - apply env_loop_post. eapply pre_ext; eassumption.
      - split; [eapply pre_ext; eassumption|exact I]. }
    destruct (trig S (eact S)) eqn:Et; [|exact (Rest S H)].
    unfold new_event, mk_event, upd_. unfold bind. cbn [fst].
    set (S2 := set_eact _ _).
    assert (H2 : pre r S2).
    { pose proof (km_mk AA RAct None false [] S (b_dist _ (p_base _ _ H))) as X1. pose proof (pre_ext _ _ _ H X1) as H1. unfold mk_event in H1. cbn [fst] in H1.
      destruct H1 as [[[D1 D2 D3] B2 B3 B4 B5] Hr O_ C1]. destruct (p_base _ _ H) as [[D1' D2' D3'] _ _ _ _]. destruct H as [_ _ O' _].
      assert (En : event_at (eact S2) S2 = Some (MkEvt RAct None false (Some []))) by (unfold S2, event_at; cbn [eact set_eact evs set_evs]; apply nth_snoc_new).
      constructor; auto.
      - constructor; auto.
        + constructor; cbn [S2 eact set_eact evs set_evs pact acts]; [rewrite app_length; cbn [List.length]; lia|rewrite app_length; lia|]. intros n ev Hn. specialize (D3' n ev Hn). rewrite app_length. lia.
        + intros e He V. rewrite En in He. injection He as <-. elim V. reflexivity.
      - cbn [S2 eact set_eact evs set_evs]. rewrite app_length. lia.
      - intros T2. unfold trig in T2. rewrite En in T2. discriminate. }
    pose proof (km_interrupt AA P pro S2 (b_dist _ (p_base _ _ H2))) as X. destruct (interrupt P pro S2) as [S3 [u|t]]; cbn [fst] in X.
    + apply Rest. eapply pre_ext; eassumption.
    + split; [eapply pre_ext; eassumption|exact I].
  - split; [destruct o; exact H|destruct o; exact I].
Qed.
Lemma env_ends r o S : pre r S -> pkind r = Some GEnv -> Main (end_process P o S).
Proof.
  intros H K. unfold end_process. unfold own_event. pose proof (p_proc _ _ H) as Hr. unfold proc_at in Hr. rewrite Hr.
  rewrite (set_prc_at P r) by exact Hr. set (r' := MkPrc (pkind r) (pown r) (ptarget r) KEnd). set (S1 := set_prs (upd (prs S) P r') S).
  assert (B1 : base S1) by (unfold S1, r'; rewrite <- (set_prc_at P r (fun r => MkPrc (pkind r) (pown r) (ptarget r) KEnd) S Hr); apply base_set_prc; [reflexivity|apply H]).
  assert (Hr1 : proc_at P S1 = Some r') by (unfold proc_at, S1; cbn [prs set_prs]; apply (upd_same _ _ _ _ Hr)).
  pose proof (near_give (pown r) o S1 (b_dist _ B1) (proj1 (p_own _ _ H)) (proj2 (p_own _ _ H))) as N. eapply near_main; [|exact N].
  split; [exact B1|]. exists r'. split; [exact Hr1|]. split; [exact K|]. split; [exact I|]. intros _. left. reflexivity.
Qed.
Lemma env_waits r pro g ev S : pre r S -> pkind r = Some GEnv -> ready ev S ->
  Main (hand_over P ev (set_prc P (fun r => MkPrc (pkind r) (pown r) (ptarget r) (KEnvWait pro g)) S)).
Proof.
  intros H K (e & He & Nc & Va & Vn). pose proof (p_proc _ _ H) as Hr. set (f := fun r => MkPrc (pkind r) (pown r) (ptarget r) (KEnvWait pro g)).
  assert (B1 : base (set_prc P f S)) by (apply base_set_prc; [reflexivity|apply H]). rewrite (set_prc_at P r) in * by exact Hr. set (S1 := set_prs (upd (prs S) P (f r)) S) in *.
  assert (Hr1 : proc_at P S1 = Some (f r)) by (unfold proc_at, S1; cbn [prs set_prs]; apply (upd_same _ _ _ _ Hr)).
  unfold hand_over. change (event_at ev S1) with (event_at ev S). rewrite He. destruct (ecbs e) as [l|] eqn:El; [|elim Nc; reflexivity].
  pose proof (km_add_cb AA ev (CResume P) S1 (b_dist _ B1)) as X. unfold exec_. set (S2 := fst (add_cb ev (CResume P) S1)) in *.
  assert (He2 : event_at ev S2 = Some (MkEvt (erole e) (evalue e) (edefused e) (Some (l ++ [CResume P])))).
  { unfold S2, add_cb, set_event, upd_. cbn [fst]. change (nth_error (evs S1) ev) with (event_at ev S). rewrite He. unfold event_at. cbn [evs set_evs]. rewrite (upd_same _ _ _ e) by exact He. rewrite El. reflexivity. }
  pose proof (ext_proc _ _ _ _ _ X Hr1) as Hr2. set (f2 := fun r => MkPrc (pkind r) (pown r) ev (pcode r)).
  assert (B3 : base (set_prc P f2 S2)) by (apply base_set_prc; [reflexivity|]; eapply near_base; [exact B1|apply ext_near; exact X]).
  rewrite (set_prc_at P (f r)) in * by exact Hr2. set (S3 := set_prs _ S2) in *. split; [exact B3|]. exists (f2 (f r)).
  assert (Eo : eact S2 = eact S) by (rewrite (x_eact _ _ _ X); reflexivity).
  split; [unfold proc_at, S3; cbn [prs set_prs]; apply (upd_same _ _ _ _ Hr2)|]. split; [exact K|]. split.
  - unfold live. cbn [pcode f2 f]. destruct (evalue e) as [o|] eqn:Ev.
    + left. left. cbn [ptarget f2]. eexists. split; [exact He2|]. split; [discriminate|]. split; [unfold cbs_of; cbn [ecbs]; apply in_or_app; right; left; reflexivity|].
      assert (A2 : at_now ev S2) by (eapply at_now_grow; [apply X|apply X|]; apply Va; discriminate). exact A2.
    + right. split; cbn [ptarget f2].
      * eexists. split; [exact He2|]. split; [reflexivity|]. unfold cbs_of. cbn [ecbs]. apply in_or_app. right. left. reflexivity.
      * left. destruct (Vn eq_refl) as (x & Hx & Ix). change (event_at (eact S) S1 = Some x) in Hx. destruct (x_ev _ _ _ X _ _ Hx) as (x' & Hx' & _ & I' & _). exists x'. split; [|apply I'; exact Ix].
        change (event_at (eact S2) S2 = Some x'). rewrite Eo. exact Hx'.
  - intros T. right. change (trig S2 (eact S2) = true) in T. rewrite Eo in T. change (eact S) with (eact S1) in T. destruct (x_trig _ _ _ X T) as [T1|T1]; [|exact T1].
    exact (p_calm _ _ H T1).
Qed.

(** ** All steps *)
Lemma main_step O S S' : Inv S -> Main S -> (forall p e, presses p e S -> AA) -> sim_step O S = Some S' -> MainC (AA /\ now S' = now S) S'.
Proof.
  intros H M Ha Hs. unfold sim_step in Hs. destruct (dead S); [discriminate|]. destruct (todo S) as [|w l] eqn:Et.
  { destruct (pop_min (heap S)) as [[q h]|] eqn:Ep; [|discriminate]. destruct (pop_min_ok _ _ _ Ep) as [Hq _]. destruct (i_heap _ H _ Hq) as (_ & e & He & _). cbv zeta in Hs.
    change (event_at (qev q) (set_now (qtime q) (set_queue (eid S) h S))) with (event_at (qev q) S) in Hs. rewrite He in Hs. injection Hs as <-.
    unfold exec_, set_event, upd_. cbn [fst evs set_now set_queue]. change (nth_error (evs S) (qev q)) with (event_at (qev q) S). rewrite He. apply (main_pop S q h e H M Et Ep He). }
  injection Hs as <-. pose proof (work_clock O w l S H Et) as Ck.
  assert (G : Main (work_off O w (set_todo l S))); [|destruct G as [GB (x & G1 & G2 & G3 & G4)]; split; [exact GB|]; exists x; repeat split; auto; intros T; destruct (G4 T); auto].
  clear Ck. pose proof M as M0. destruct M0 as [B (r & Hr & K & L & C)].
  pose proof (base_tail _ _ _ Et B) as B1. set (S1 := set_todo l S) in *.
  assert (Re : role_at (eact S) RAct S) by (apply (i_eact _ H); apply (i_env _ H _ _ Hr); rewrite K; exact I).
  assert (Own : forall q x, proc_at q S = Some x -> pown x <> eact S /\ pown x < List.length (evs S)).
  { intros q x Hx. destruct (i_own _ H _ _ Hx) as (e & He & Ro & _). split; [|apply nth_error_Some; unfold event_at in He; congruence].
    intros Z. destruct Re as (y & Hy & Ry). rewrite <- Z in Hy. congruence. }
  destruct w as [ev [q|q|c]|q o|ev]; cbn [work_off].
  - change (event_at ev S1) with (event_at ev S). assert (Hw : In (WCb ev (CResume q)) (todo S)) by (rewrite Et; left; reflexivity).
    pose proof (b_cb _ B _ _ Hw) as Tv. apply trig_value in Tv. destruct Tv as (e & He & V). rewrite He. destruct (evalue e) as [o|]; [|elim V; reflexivity].
    pose proof (near_run_value q o ev S1 (b_dist _ B1)) as N. destruct (Nat.eq_dec q P) as [->|Nq].
    + split; [eapply near_base; [exact B1|exact N]|]. exists r. split; [apply N; exact Hr|]. split; [exact K|]. split; [|eapply near_calmly; [exact N|exact C]].
      eapply live_soon; [exact L|]. right. right. exists o. left. destruct o; reflexivity.
    + eapply near_main; [|exact N]. apply (main_tail _ _ _ Et); [|discriminate|exact M]. intros x Hx. split; [intros [= _ Z]; exact (Nq Z)|discriminate].
  - assert (M1 : Main S1) by (apply (main_tail _ _ _ Et); [intros x Hx; split; discriminate|discriminate|exact M]).
    destruct (ended q S1); [exact M1|]. change (nth_error (prs S1) q) with (proc_at q S). destruct (proc_at q S) as [rq|] eqn:Hq; [|exact M1].
    assert (Nq : q <> P).
    { intros ->. assert (Hw : In (WCb ev (CInt P)) (todo S)) by (rewrite Et; left; reflexivity). destruct (i_intw _ H _ _ Hw) as (_ & y & Hy & Ry). destruct (i_role _ H _ _ _ Hy Ry) as (_ & r' & Hr' & So).
      assert (r' = r) by congruence. subst r'. rewrite K in So. exact So. }
    cbv zeta. pose proof (near_remove q (ptarget rq) S1 (b_dist _ B1) Nq) as N. eapply near_main; [eapply near_main; [exact M1|exact N]|]. apply near_add_run. apply N.
  - unfold exec_. assert (Hw : In (WCb ev (CCheck c)) (todo S)) by (rewrite Et; left; reflexivity). destruct (i_chkw _ H _ _ Hw) as (y & Hy & Ry).
    assert (Lc : c < List.length (evs S1)) by (change (evs S1) with (evs S); apply nth_error_Some; unfold event_at in Hy; congruence).
    assert (Nc : c <> eact S1) by (intros Z; destruct Re as (x & Hx & Rx); change (eact S1) with (eact S) in Z; rewrite <- Z in Hx; congruence).
    destruct (i_cbw _ H _ _ Hw) as (z & Hz & _). assert (Lv : ev < List.length (evs S1)) by (change (evs S1) with (evs S); apply nth_error_Some; unfold event_at in Hz; congruence).
    pose proof (km_check AA c ev S1 Lc Nc (b_dist _ B1)) as X. pose proof (ext_near _ _ X) as N. pose proof (trig_check c ev S1 Lc Lv) as T. set (S2 := fst (check c ev S1)) in *.
    split; [eapply near_base; [exact B1|exact N]|]. exists r. split; [apply N; exact Hr|]. split; [exact K|]. split; [|eapply near_calmly; [exact N|exact C]].
    destruct (Nat.eq_dec c (ptarget r)) as [->|Nt].
    + assert (So : soon r S -> soon r S2).
      { intros So. eapply near_soon; [exact N|]. destruct So as [So|[So|(o & So)]]; [left; exact So| |]; rewrite Et in So; (destruct So as [So|So]; [discriminate|]); right; [left; exact So|right; exists o; exact So]. }
      unfold live in L |- *. destruct (pcode r); auto. destruct L as [L|[(x & Hx & V & Ix) _]]; [left; auto|]. left. left. change (event_at (ptarget r) S1 = Some x) in Hx.
      destruct (x_ev _ _ _ X _ _ Hx) as (x' & Hx' & _ & I' & _ & Nv & _). apply trig_value in T. destruct T as (x2 & Hx2 & V2). assert (x2 = x') by congruence. subst x2.
      exists x'. split; [exact Hx'|]. split; [exact V2|]. split; [apply I'; exact Ix|]. destruct (Nv V) as [Z|Z]; [elim (V2 Z)|exact Z].
    + eapply near_live; [exact N|]. apply (live_tail _ _ _ _ Et); [discriminate|discriminate| |exact L]. intros [= _ Z]. exact (Nt Z).
  - change (nth_error (prs S1) q) with (proc_at q S). destruct (Nat.eq_dec q P) as [->|Nq].
    + rewrite Hr. destruct (i_kind _ H _ _ Hr) as [Hk _].
      assert (Dk : pcode r = KEnd \/ pcode r <> KEnd) by (destruct (pcode r); auto; right; discriminate). destruct Dk as [Dk|Dk].
      * rewrite Dk. assert (Eg : go_on O P KEnd o S1 = (S1, inl (NDone XUnit))) by (destruct o; reflexivity). rewrite Eg.
        (* the environment is over already *)
        unfold end_process, own_event. change (nth_error (prs S1) P) with (proc_at P S). rewrite Hr. rewrite (set_prc_at P r) by exact Hr. rewrite <- Dk.
        set (f := fun r => MkPrc (pkind r) (pown r) (ptarget r) (pcode r)). destruct (Own _ _ Hr) as [O1 O2].
        assert (B2 : base (set_prs (upd (prs S1) P (MkPrc (pkind r) (pown r) (ptarget r) (pcode r))) S1)).
        { change (MkPrc (pkind r) (pown r) (ptarget r) (pcode r)) with (f r). rewrite <- (set_prc_at P r f S1 Hr). apply base_set_prc; [reflexivity|exact B1]. }
        eapply near_main; [|apply near_give; [apply B2|exact O1|exact O2]]. split; [exact B2|]. eexists. split; [unfold proc_at; cbn [prs set_prs]; apply (upd_same _ _ _ r); exact Hr|].
        split; [exact K|]. split; [unfold live; cbn [pcode]; rewrite Dk; exact I|]. intros _. left. exact Dk.
      * assert (Pr : pre r S1).
        { constructor; [exact B1|exact Hr|exact (Own _ _ Hr)|]. intros T. destruct (C T) as [Z|Z]; [elim (Dk Z)|exact Z]. }
        pose proof (go_on_post O r o S1 Pr K Hk) as [P2 Q]. destruct (go_on O P (pcode r) o S1) as [S2 x]. cbn [fst snd] in *.
        destruct x as [[c ev|v]|t]; try (eapply env_ends; eassumption). destruct Q as [(pro & g & ->) Rd]. eapply env_waits; eassumption.
    + assert (M1 : Main S1) by (apply (main_tail _ _ _ Et); [intros x Hx; split; discriminate|intros o' [= Z _]; exact (Nq Z)|exact M]).
      destruct (proc_at q S) as [rq|] eqn:Hq; [|exact M1].
      assert (Nk : kind_of (pcode rq) <> Some GEnv).
      { intros Z. destruct (i_kind _ H _ _ Hq) as [[Z1|Z1] _]; [rewrite Z1 in Z; discriminate|]. apply Nq. apply (b_uniq _ B _ _ Hq). congruence. }
      assert (Ha' : forall b n e k v, pcode rq = KLocal b n e k -> o = Good v -> hit (ss S1) -> AA) by (intros b n e k v Ec -> Hh; apply (Ha q e); split; [exists v, l, rq, b, n, k; auto|exact Hh]).
      pose proof (km_go_on AA O q (pcode rq) o S1 Nk Ha' (b_dist _ B1)) as X. destruct (go_on O q (pcode rq) o S1) as [S2 x]. cbn [fst] in X.
      pose proof (near_main _ _ M1 (ext_near _ _ X)) as M2. pose proof (x_dist _ _ _ X) as D2. change (proc_at q S1 = Some rq) in Hq. pose proof (ext_proc _ _ _ _ _ X Hq) as Hq2.
      assert (En : forall o', Main (end_process q o' S2)).
      { intros o'. eapply near_main; [exact M2|]. destruct (Own _ _ Hq) as [O1 O2]. apply (near_end_process q rq); auto; [rewrite (x_eact _ _ _ X); exact O1|pose proof (x_len _ _ _ X) as Z; change (evs S1) with (evs S) in Z; lia]. }
      destruct x as [[c ev|v]|t]; try apply En. pose proof (near_set_prc q (fun r => MkPrc (pkind r) (pown r) (ptarget r) c) S2 D2 Nq (fun _ => eq_refl)) as N3.
      eapply near_main; [eapply near_main; [exact M2|exact N3]|]. apply near_hand_over; [apply N3|exact Nq].
  - assert (M1 : Main S1) by (apply (main_tail _ _ _ Et); [intros x Hx; split; discriminate|discriminate|exact M]).
    destruct (event_at ev S1) as [e|]; [|exact M1]. destruct (evalue e) as [[v|t]|]; try exact M1. destruct (edefused e); [exact M1|]. eapply near_main; [exact M1|].
    apply near_same; try reflexivity; [apply B1|apply incl_refl|auto|auto|eauto].
Qed.
End Env.

(** ** The beginning *)
Record fresh (S : sim) : Prop := MkFresh {
  r_evs : 0 < List.length (evs S);
  r_heap : forall q, In q (heap S) -> trig S (qev q) = true;
  r_acts : forall n ev, dget (acts S) n = Some ev -> ev < List.length (evs S);
  r_prs : forall q r, proc_at q S = Some r -> pkind r <> Some GEnv;
  r_todo : todo S = [] }.
Lemma trig_app S S' x ev : evs S' = evs S ++ x -> trig S ev = true -> trig S' ev = true.
Proof.
  intros E T. apply trig_value in T. destruct T as (e & He & V). apply trig_value. exists e. split; [|exact V]. unfold event_at in *. rewrite E, nth_error_app1; [exact He|]. apply nth_error_Some. congruence.
Qed.
Lemma spawned_evs c S : evs (spawned c S) = evs S ++ [MkEvt (ROwn (List.length (prs S))) None false (Some []); MkEvt (RInit (List.length (prs S))) (Some (Good XUnit)) false (Some [CResume (List.length (prs S))])].
Proof. unfold spawned. cbn [evs set_queue set_prs set_evs]. rewrite <- app_assoc. reflexivity. Qed.
Lemma spawned_init c S : event_at (Datatypes.S (List.length (evs S))) (spawned c S) = Some (MkEvt (RInit (List.length (prs S))) (Some (Good XUnit)) false (Some [CResume (List.length (prs S))])).
Proof. unfold event_at. rewrite spawned_evs, nth_error_app2 by lia. replace (Datatypes.S (List.length (evs S)) - List.length (evs S)) with 1 by lia. reflexivity. Qed.
Lemma spawned_heap c S q : (forall q, In q (heap S) -> trig S (qev q) = true) -> In q (heap (spawned c S)) -> trig (spawned c S) (qev q) = true.
Proof.
  intros H Hq. unfold spawned in Hq. cbn [heap set_queue] in Hq. apply in_app_or in Hq. destruct Hq as [Hq|[<-|[]]]; [eapply trig_app; [apply spawned_evs|auto]|].
  apply trig_value. eexists. cbn [qev]. split; [apply spawned_init|]. discriminate.
Qed.
Lemma fresh_spawned c S : kind_of c <> Some GEnv -> fresh S -> fresh (spawned c S).
Proof.
  intros K [A B C D E]. constructor.
  - rewrite spawned_evs, app_length. lia.
  - intros q Hq. apply spawned_heap; assumption.
  - intros n ev Hn. specialize (C n ev Hn). rewrite spawned_evs, app_length. lia.
  - intros q r Hr. unfold proc_at, spawned in Hr. cbn [prs set_queue set_prs] in Hr. apply nth_snoc in Hr. destruct Hr as [Hr|[_ ->]]; [exact (D _ _ Hr)|exact K].
  - exact E.
Qed.
Lemma fresh_new S : fresh S -> fresh (set_evs (evs S ++ [MkEvt RAct None false (Some [])]) S).
Proof.
  intros [A B C D E]. constructor; auto; cbn [evs set_evs]; try rewrite app_length; [lia| |].
  - intros q Hq. eapply trig_app; [reflexivity|]. exact (B q Hq).
  - intros n ev Hn. specialize (C n ev Hn). lia.
Qed.
Lemma fresh_extras names : forall S, fresh S -> fresh (exec_ (make_extras names) S) /\ snd (make_extras names S) = inl tt.
Proof.
  induction names as [|n l IH]; intros S H; cbn [make_extras]; [auto|]. unfold exec_. unfold bind at 1. unfold bind at 4. destruct (String.eqb n PROCEDURAL); [exact (IH S H)|].
  set (S1 := spawned (KExtra0 n) S). set (S2 := set_acts (dset (acts S1) n (List.length (evs S1))) (set_evs (evs S1 ++ [MkEvt RAct None false (Some [])]) (set_extras (dset (extras S1) n (List.length (prs S))) S1))).
  assert (Eq : (let! p := spawn (KExtra0 n) in upd_ (fun S => set_extras (dset (extras S) n p) S) ;! let! ev := new_event RAct in upd_ (fun S => set_acts (dset (acts S) n ev) S)) S = (S2, inl tt)) by (unfold bind at 1; rewrite spawn_eq; reflexivity).
  rewrite Eq. apply IH. assert (F : fresh S1) by (apply fresh_spawned; [discriminate|exact H]). apply fresh_new in F. destruct F as [A B C D E].
  assert (L : List.length (evs S2) = Datatypes.S (List.length (evs S1))) by (change (evs S2) with (evs S1 ++ [MkEvt RAct None false (Some [])]); rewrite app_length; cbn [List.length]; lia). constructor; auto.
  intros m ev. change (acts S2) with (dset (acts S1) n (List.length (evs S1))). rewrite dget_dset. destruct (String.eqb n m); [|apply C]. intros [= <-]. rewrite L. apply Nat.lt_succ_diag_r.
Qed.
Lemma main_init t s g : exists P, MainC P False (sim_init t s (Some g)).
Proof.
  unfold sim_init, initialise. set (S0 := MkSim _ _ _ _ _ _ _ _ _ _ _ _ _ _ _ _).
  assert (F0 : fresh S0) by (constructor; try reflexivity; [cbn; lia|intros q []|discriminate|intros q r; unfold proc_at; cbn; destruct q; discriminate]).
  unfold exec_, bind at 1. rewrite spawn_eq. apply (fresh_spawned KProc0) in F0; [|discriminate]. set (S1 := spawned KProc0 S0) in *. clearbody S1.
  destruct (fresh_extras (dkeys (snames s)) S1 F0) as [F2 E2]. unfold exec_ in F2. unfold bind at 1. destruct (make_extras (dkeys (snames s)) S1) as [S2 x]. cbn [fst snd] in *. subst x.
  unfold bind at 1, bind at 1, new_event at 1, mk_event at 1, upd_ at 1. set (S3 := set_pact _ _). assert (F3 : fresh S3) by (apply fresh_new in F2; destruct F2; constructor; auto).
  assert (Hp : pact S3 < List.length (evs S3)) by (unfold S3; cbn [pact set_pact evs set_evs]; rewrite app_length; cbn; lia). clearbody S3.
  unfold bind at 1. rewrite spawn_eq. unfold bind, new_event, mk_event, upd_. cbn [fst]. set (P := List.length (prs S3)). exists P.
  set (S5 := set_eact _ _). set (S4 := spawned (KEnv0 g) S3) in *.
  assert (Ee : evs S5 = evs S4 ++ [MkEvt RAct None false (Some [])]) by reflexivity.
  assert (L4 : List.length (evs S4) = 2 + List.length (evs S3)) by (unfold S4; rewrite spawned_evs, app_length; cbn; lia).
  assert (Ea : event_at (eact S5) S5 = Some (MkEvt RAct None false (Some []))) by (unfold event_at; cbn [S5 eact set_eact evs set_evs]; apply nth_snoc_new).
  destruct F3 as [A B C D E].
  assert (B4 : forall q, In q (heap S4) -> trig S4 (qev q) = true) by (intros q Hq; apply spawned_heap; assumption).
  split; [constructor|].
  - constructor; rewrite Ee; cbn [S5 eact set_eact pact acts set_evs]; rewrite app_length; cbn [List.length]; [lia|change (pact S4) with (pact S3); lia|].
    intros n ev Hn. specialize (C n ev Hn). lia.
  - intros q Hq. eapply trig_app; [exact Ee|]. apply B4. exact Hq.
  - intros ev c Hc. change (todo S5) with (todo S3) in Hc. rewrite E in Hc. destruct Hc.
  - intros q r Hr K. change (nth_error (prs S3 ++ [MkPrc (Some GEnv) (List.length (evs S3)) (Datatypes.S (List.length (evs S3))) (KEnv0 g)]) q = Some r) in Hr. apply nth_snoc in Hr. destruct Hr as [Hr|[-> _]]; [elim (D _ _ Hr K)|reflexivity].
  - intros e He V. rewrite Ea in He. injection He as <-. elim V. reflexivity.
  - exists (MkPrc (Some GEnv) (List.length (evs S3)) (Datatypes.S (List.length (evs S3))) (KEnv0 g)). split; [apply nth_snoc_new|]. split; [reflexivity|]. split.
    + left. cbn [ptarget]. eexists. split; [|split; [|split]].
      * unfold event_at. rewrite Ee. apply nth_snoc_old. apply (spawned_init (KEnv0 g) S3).
      * discriminate.
      * left. reflexivity.
      * eexists. split; [unfold S5, S4, spawned; cbn [heap set_eact set_evs set_queue]; apply in_or_app; right; left; reflexivity|]. split; [reflexivity|]. cbn [qtime]. change (now S5) with (now S3). lia.
    + intros T. unfold trig in T. rewrite Ea in T. discriminate.
Qed.
Lemma MainC_weaken P (A B : Prop) S : (A -> B) -> MainC P A S -> MainC P B S.
Proof. intros Hab [Ba (r & Hr & K & L & C)]. split; [exact Ba|]. exists r. repeat split; auto. intros T. destruct (C T); auto. Qed.
Theorem main_runs O t s g S : sim_runs O (sim_init t s (Some g)) S -> exists P, MainC P (pressed_now O (sim_init t s (Some g)) S) S.
Proof.
  intros R. destruct (main_init t s g) as (P & M). exists P. remember (sim_init t s (Some g)) as S0 eqn:E0. induction R as [|S0 S1 S2 R IH Hs].
  { eapply MainC_weaken; [|exact M]. intros []. }
  specialize (IH E0 M). subst S0. set (S0 := sim_init t s (Some g)) in *. pose proof (sim_ok _ _ _ _ _ R) as H.
  eapply MainC_weaken; [|eapply (main_step P (pressed_now O S0 S1 \/ exists p e, presses p e S1)); [exact H| |eauto|exact Hs]].
  - intros [[(A & B & p & e & R1 & Hs1 & R2 & Hp & En)|(p & e & Hp)] Ec].
    + exists A, B, p, e. repeat split; auto; [eapply sim_runs_step; eassumption|apply Hp|apply Hp|congruence].
    + exists S1, S2, p, e. repeat split; auto; [constructor|apply Hp|apply Hp].
  - eapply MainC_weaken; [|exact IH]. auto.
Qed.


(** ** A press *)
Lemma activate_trig e S : dist S -> trig (fst (activate e S)) (eact S) = trig S (eact S).
Proof.
  intros D. destruct (d_pact _ D) as [N L]. unfold activate, bind, get.
  assert (G : trig (fst ((if String.eqb (eproc e) PROCEDURAL then ret tt else if trig S (pact S) then ret tt else succeed (pact S)) S)) (eact S) = trig S (eact S)).
  { destruct (String.eqb _ _); [reflexivity|]. destruct (trig S (pact S)) eqn:T; [reflexivity|]. unfold succeed, bind, get. rewrite T. unfold set_event, schedule, upd_. cbn [fst].
    destruct (nth_error (evs S) (pact S)) as [x|]; [|reflexivity]. unfold trig, event_at. cbn [evs set_queue set_evs]. rewrite upd_other by auto. reflexivity. }
  destruct (ewhat e); try exact G. reflexivity.
Qed.
Lemma activate_ok e S : snd (activate e S) = inl tt.
Proof.
  unfold activate, bind, get.
  assert (G : snd ((if String.eqb (eproc e) PROCEDURAL then ret tt else if trig S (pact S) then ret tt else succeed (pact S)) S) = inl tt).
  { destruct (String.eqb _ _); [reflexivity|]. destruct (trig S (pact S)) eqn:T; [reflexivity|]. unfold succeed, bind, get. rewrite T. reflexivity. }
  destruct (ewhat e); try exact G. reflexivity.
Qed.
Lemma press_trig O p b n e k v S S' : dist S -> go_on O p (KLocal b n e k) (Good v) S = (S', inr TRuntime) -> trig S (eact S) = true /\ hit (ss S).
Proof.
  intros D. cbn [go_on]. unfold bind at 1, note, upd_ at 1. set (S1 := set_log _ S). assert (D1 : dist S1) by (destruct D; constructor; auto).
  unfold bind at 1. pose proof (activate_ok e S1) as Ok. pose proof (activate_trig e S1 D1) as T. pose proof (km_activate False e S1 D1) as X. pose proof (activate_ss e S1) as Es. destruct (activate e S1) as [S2 x]. cbn [fst snd] in *. subst x.
  unfold bind at 1, interact, bind at 1, get at 1.
  assert (Ln : forall b n g S3 S4, local_next b n g S3 <> (S4, inr TRuntime)).
  { intros b' n' g' S3 S4. unfold local_next. destruct (resume g' (ss S3)) as [[s' ns] o]. destruct o as [|x|e' k'|x]; try discriminate.
    unfold timeout, bind, get, mk_event, schedule, upd_, ret. destruct (Z.ltb _ _); discriminate. }
  destruct (hasenv S2); [|intros Z; elim (Ln _ _ _ _ _ Z)]. unfold bind at 1. destruct (existsb _ _) eqn:Eh.
  - apply hit_true in Eh. rewrite Es in Eh. change (ss S1) with (ss S) in Eh. unfold succeed, bind at 1, get. rewrite (x_eact _ _ _ X), T. change (trig S1 (eact S1)) with (trig S (eact S)). destruct (trig S (eact S)); [auto|].
    unfold set_event, schedule, bind, upd_. intros Z. elim (Ln _ _ _ _ _ Z).
  - unfold ret, upd_. intros Z. elim (Ln _ _ _ _ _ Z).
Qed.
Theorem press_fails O t s g S S' p e : sim_runs O (sim_init t s (Some g)) S -> announces p e S -> sim_step O S = Some S' -> failed p TRuntime S' -> hit (ss S) /\ (env_over S \/ pressed_now O (sim_init t s (Some g)) S).
Proof.
  intros R (v & l & r & b & n & k & Et & Hr & Ec) Hs (r' & e' & Hr' & He' & Ev').
  destruct (main_runs _ _ _ _ _ R) as (P & B & rP & HrP & KP & _ & Cm).
  assert (R' : sim_runs O (sim_init t s (Some g)) S') by (eapply sim_runs_step; eassumption). pose proof (sim_ok _ _ _ _ _ R) as H. pose proof (sim_ok _ _ _ _ _ R') as H'.
  assert (T : trig S (eact S) = true /\ hit (ss S)).
  { unfold sim_step in Hs. destruct (dead S); [discriminate|]. rewrite Et in Hs. injection Hs as <-. cbn [work_off] in *. change (nth_error (prs (set_todo l S)) p) with (nth_error (prs S) p) in *. rewrite Hr in *. rewrite Ec in *.
    pose proof (base_tail _ _ _ _ Et B) as B1. pose proof (km_go_on True O p (KLocal b n e k) (Good v) (set_todo l S) ltac:(discriminate) ltac:(auto) (b_dist _ _ B1)) as X.
    destruct (go_on O p (KLocal b n e k) (Good v) (set_todo l S)) as [S2 x] eqn:Eg. cbn [fst] in X. change (proc_at p (set_todo l S) = Some r) in Hr. pose proof (ext_proc _ _ _ _ _ X Hr) as Hr2.
    assert (En : forall o, nth_error (prs (end_process p o S2)) p = Some r' -> event_at (pown r') (end_process p o S2) = Some e' -> evalue e' = Some o).
    { intros o A1 A2. destruct (end_process_sum p r o S2 Hr2) as (_ & _ & _ & Ep & _). rewrite Ep, (upd_same _ _ _ _ Hr2) in A1. injection A1 as <-. cbn [pown] in A2.
      unfold end_process, own_event in A2. unfold proc_at in Hr2. rewrite Hr2, (set_prc_at p r) in A2 by exact Hr2. unfold exec_, bind, set_event, schedule, upd_ in A2. cbn [fst] in A2.
      unfold event_at in A2. cbn [evs set_prs] in A2. destruct (nth_error (evs S2) (pown r)) as [y|] eqn:Hy; cbn [evs set_queue set_evs set_prs] in A2.
      - rewrite (upd_same _ _ _ _ Hy) in A2. injection A2 as <-. reflexivity.
      - congruence. }
    destruct x as [[c ev|v']|t'].
    - exfalso. destruct (i_own _ H' p r' Hr') as (y & Hy & _ & Vy). unfold event_at in Hy. assert (y = e') by congruence. subst y.
      assert (Ck : pcode r' = c).
      { destruct (event_at ev S2) as [z|] eqn:Hz.
        - destruct (hand_over_sum p r c ev z S2 Hr2 Hz) as (_ & _ & _ & Q). cbv zeta in Q. unfold proc_at in Hr'.
          destruct Q as [(o & _ & _ & Q)|(_ & Q)]; rewrite Q, (upd_same _ _ _ _ Hr2) in Hr'; injection Hr' as <-; reflexivity.
        - unfold hand_over in Hr'. rewrite (set_prc_at p r) in Hr' by exact Hr2. change (event_at ev (set_prs (upd (prs S2) p (MkPrc (pkind r) (pown r) (ptarget r) c)) S2)) with (event_at ev S2) in Hr'. rewrite Hz in Hr'.
          cbn [prs set_prs] in Hr'. rewrite (upd_same _ _ _ _ Hr2) in Hr'. injection Hr' as <-. reflexivity. }
      assert (Nk : c <> KEnd).
      { intros ->. clear - Eg. cbn [go_on] in Eg. revert Eg. unfold bind at 1, note, upd_ at 1. unfold bind at 1. destruct (activate _ _) as [S3 [u|t]]; [|discriminate]. unfold bind at 1. destruct (interact _) as [S4 [u'|t]]; [|discriminate].
        unfold local_next. destruct (resume k (ss S4)) as [[s' ns] o]. destruct o as [|x|e' k'|x]; try discriminate. unfold timeout, bind, get, mk_event, schedule, upd_, ret. destruct (Z.ltb _ _); discriminate. }
      rewrite Ck in Vy. destruct Vy as [_ Vy]. rewrite (Vy Nk) in Ev'. discriminate.
    - pose proof (En _ Hr' He') as Z. congruence.
    - pose proof (En _ Hr' He') as Z. assert (t' = TRuntime) by congruence. subst t'. exact (press_trig _ _ _ _ _ _ _ _ _ (b_dist _ _ B1) Eg). }
  destruct T as [T Hh]. split; [exact Hh|]. destruct (Cm T) as [Z|Z]; [left|right; exact Z]. unfold env_over. apply Forall_forall. intros x Hx K. apply In_nth_error in Hx. destruct Hx as (i & Hi).
  assert (i = P) by (apply (b_uniq _ _ B i x Hi K)). subst i. unfold proc_at in HrP. congruence.
Qed.
