(** Simulations without environment: when they stop by themselves, no rule matches.  The processes of buffers. *)
From Coq Require Import Lia Sorted.
From Verif Require Import Base BaseFacts Chunks DecMem Buffers BufferFacts Productions ProdSpec LearnFacts Sim SimSpec SimFacts CompileFacts RunFacts LiftFacts SafeSpec RequestFacts QuietGens QueueFacts SafeFacts SafeSteps SafeMain FailFacts SafeRuns BrokenFacts QuietFacts QuietSteps.
Local Open Scope string_scope.
Local Open Scope list_scope.
Local Open Scope nat_scope.

(** What a process of the buffers leaves behind. *)
Lemma Gen_aside L p b r r' S S' : Inv S -> Inv S' -> Que (Some p) S -> Que b S' -> Gen L (Some p) S -> Aside p r r' S S' ->
  (b = Some p \/ (b = None /\ Load L S' r')) ->
  (forall i x, proc_at i S' = Some x -> proc_at i S = None -> Load L S' x) ->
  (forall n ev q, dget (acts S') n = Some ev -> In q (heap S') -> qev q = ev -> ~ In q (heap S) -> room L S' q 1) ->
  (forall i x n, i <> p -> proc_at i S = Some x -> pcode x = KExtraPro n p -> dget (inter S') n = None -> Soon S' p) ->
  (forall i x n q, i <> p -> proc_at i S = Some x -> pcode x = KExtraPro n p \/ pcode x = KExtraCont n p -> pcode r' = KEnd -> In q (heap S') -> ~ In q (heap S) -> qev q = pown r' ->
     room L S' q 1 /\ (pcode x = KExtraPro n p -> forall e g, event_at (pown r') S' = Some e -> evalue e = Some (Good (XCont g)) -> exists k, k <= 4 /\ lasts (now S') k false g /\ room L S' q (1 + k))) ->
  Gen L b S'.
Proof.
  intros HI HI' Q Q' G A Hl Hn Ha Hs He.
  apply (Gen_move L p b S S' r r' HI HI' Q Q' G (a_mv _ _ _ _ _ A) (a_p _ _ _ _ _ A) (a_p' _ _ _ _ _ A) (a_own _ _ _ _ _ A) Hl Hn Ha (a_born _ _ _ _ _ A)); auto.
  - intros n. destruct (a_inter _ _ _ _ _ A n) as [X|X]; [left; exact X|right; congruence].
  - intros pr Hpr. rewrite (a_next _ _ _ _ _ A). exact (g_list _ _ _ G pr (a_sub _ _ _ _ _ A pr Hpr)).
  - intros n id Hi. rewrite (a_next _ _ _ _ _ A). destruct (a_less _ _ _ _ _ A n) as [X|X]; [congruence|]. apply (g_inter _ _ _ G n). congruence.
Qed.
(** Nobody waits for the process of a buffer. *)
Lemma extra_alone S p n i x m : Inv S -> dget (extras S) n = Some p -> proc_at i S = Some x -> pcode x = KExtraPro m p \/ pcode x = KExtraCont m p -> False.
Proof.
  intros HI Hn Hi Hx. destruct (i_extras _ HI n p Hn) as (r & Hr & K). pose proof (i_fits _ HI i x Hi) as F. destruct Hx as [E|E]; rewrite E in F; destruct F as (y & Hy & Ky & _); congruence.
Qed.
Lemma Gen_extra L p b r r' n S S' : Inv S -> Inv S' -> Que (Some p) S -> Que b S' -> Gen L (Some p) S -> Aside p r r' S S' -> dget (extras S) n = Some p ->
  (b = Some p \/ (b = None /\ Load L S' r')) ->
  (forall i x, proc_at i S' = Some x -> proc_at i S = None -> Load L S' x) ->
  (forall n ev q, dget (acts S') n = Some ev -> In q (heap S') -> qev q = ev -> ~ In q (heap S) -> room L S' q 1) -> Gen L b S'.
Proof.
  intros HI HI' Q Q' G A Hn Hl Hb Ha. apply (Gen_aside L p b r r' S S'); auto.
  - intros i x m _ Hi Hx. elim (extra_alone S p n i x m HI Hn Hi (or_introl Hx)).
  - intros i x m q _ Hi Hx. elim (extra_alone S p n i x m HI Hn Hi Hx).
Qed.

Lemma Post_baby O d S : Post O d S -> d = SStart \/ d = SNew -> NoBaby S.
Proof. intros (r0 & _ & H) [E|E]; subst d; [apply H|]. destruct H as (f & p & r & _ & _ & _ & _ & X & _). exact X. Qed.

Section Model.
Variables (O : oracle) (tie : string -> string -> bool) (t : Z) (s : st).
Hypothesis CO : compiles_with O tie.
Hypothesis H1 : one_request s.
Hypothesis H2 : plain_names s.
Hypothesis V : svars s = nobind.
Hypothesis Es : sprocs s = [].
Hypothesis Nd : NoDup (dkeys (snames s)).
Hypothesis SE : slow_eyes O.

Definition Reach (S : sim) : Prop := sim_runs O (sim_init t s None) S.
Definition Quiet (S : sim) : Prop := exists d, Gen (lim d) None S /\ Post O d S /\ Kind None None d S.
Inductive Fin : sim -> Prop :=
| fin_here S : Quiet S -> todo S = [] -> Fin S
| fin_broken S : Broken S -> Fin S
| fin_next S S' : todo S <> [] -> sim_step O S = Some S' -> Fin S' -> Fin S.

Lemma reach_inv S : Reach S -> Inv S. Proof. exact (sim_ok O t s None S). Qed.
Lemma reach_mannered S : Reach S -> mannered (ss S). Proof. exact (sim_mannered O tie CO t s S H1 H2 V). Qed.
Lemma reach_safe S : Reach S -> (SafeFacts.Ok S /\ Neat S) \/ Broken S.
Proof. intros R. destruct (sim_safe O tie CO t s H1 H2 V Es Nd S R) as [X|X]; [left; exact X|right; right; exact X]. Qed.
Lemma reach_step S S' : Reach S -> sim_step O S = Some S' -> Reach S'. Proof. intros R H. econstructor; [exact R|exact H]. Qed.

Lemma Quiet_todo l S : Quiet S -> Quiet (set_todo l S).
Proof.
  intros (d & A & B & C). exists d. split; [apply Gen_todo; exact A|]. split.
  - apply (Post_same S); auto; intros ev e He; exists e; auto.
  - apply (Kind_same S); auto; intros ev e He; exists e; auto.
Qed.
Lemma Fin_quiet S w : Reach S -> todo S = [WEnd w] -> Quiet S -> Fin S.
Proof.
  intros R Et Qu. destruct (reach_safe S R) as [[K N]|B]; [|apply fin_broken; exact B].
  assert (Hs : sim_step O S = Some (work_off O (WEnd w) (set_todo [] S))) by (unfold sim_step; rewrite (o_dead _ K), Et; reflexivity).
  apply (fin_next S _ ltac:(congruence) Hs). pose proof (reach_step _ _ R Hs) as R'. cbn [work_off] in *.
  assert (Z : Fin (set_todo [] S)) by (apply fin_here; [apply Quiet_todo; exact Qu|reflexivity]).
  destruct (event_at w (set_todo [] S)) as [e|]; [|exact Z]. destruct (evalue e) as [[v|f]|]; try exact Z. destruct (edefused e); [exact Z|].
  destruct (reach_safe _ R') as [[K' _]|B]; [pose proof (o_dead _ K') as D; discriminate|apply fin_broken; exact B].
Qed.

(** The process [p] is to be resumed. *)
Record Turn (p : nat) (o : outcome) (w : nat) (r : prc) (S : sim) : Prop := MkTurn {
  t_reach : Reach S;
  t_todo : todo S = [WRun p o; WEnd w];
  t_proc : proc_at p S = Some r;
  t_live : pcode r <> KEnd;
  t_ok : SafeFacts.Ok S;
  t_neat : Neat S }.
Section TurnFacts.
Variables (p : nat) (o : outcome) (w : nat) (r : prc) (S : sim).
Hypothesis T : Turn p o w r S.
Let S1 := set_todo [WEnd w] S.
Lemma turn_parts : Inv S /\ mannered (ss S) /\ Que (Some p) S /\ Sem (fun n => Some p <> Some 0 /\ called S n) (Some p) S /\ Act p (pcode r) o S.
Proof.
  destruct T as [R Et Hr Hl K N]. split; [exact (reach_inv S R)|]. split; [exact (reach_mannered S R)|]. destruct (o_all _ K) as (a & Q & Se & _ & Td). unfold Todo in Td. rewrite Et in Td. destruct Td as (-> & x & Hx & _ & Ac).
  assert (x = r) by congruence. subst x. auto.
Qed.
Lemma turn_step : sim_step O S = Some (work_off O (WRun p o) S1).
Proof. unfold sim_step. rewrite (o_dead _ (t_ok _ _ _ _ _ T)), (t_todo _ _ _ _ _ T). reflexivity. Qed.
Lemma land S3 : sim_step O S = Some S3 -> todo S3 = [WEnd w] -> (Inv S3 -> Que None S3 -> Quiet S3) -> Fin S.
Proof.
  intros Hs Et Hq. apply (fin_next S S3); [rewrite (t_todo _ _ _ _ _ T); discriminate|exact Hs|]. pose proof (reach_step _ _ (t_reach _ _ _ _ _ T) Hs) as R'.
  destruct (reach_safe _ R') as [[K N]|B]; [|apply fin_broken; exact B]. apply (Fin_quiet S3 w R' Et). apply Hq; [exact (reach_inv _ R')|].
  destruct (o_all _ K) as (a & Q & _ & _ & Td). unfold Todo in Td. rewrite Et in Td. subst a. exact Q.
Qed.
Lemma land_fail S2 f : go_on O p (pcode r) o S1 = (S2, inr f) -> Fin S.
Proof.
  intros Hg. apply (fin_next S (work_off O (WRun p o) S1)); [rewrite (t_todo _ _ _ _ _ T); discriminate|exact turn_step|]. apply fin_broken. destruct T as [R Et Hr Hl K N].
  exact (broken_start O S p o w r S2 f (reach_inv S R) (reach_mannered S R) K N Et Hr Hg).
Qed.
Lemma after_go S2 y : go_on O p (pcode r) o S1 = (S2, y) -> Inv S2 /\ proc_at p S2 = Some r.
Proof.
  intros Hg. destruct T as [R Et Hr Hl K N]. pose proof (run_parts O p o [WEnd w] r S (reach_inv S R) (o_env _ K) Et Hr Hl) as X. cbv zeta in X. fold S1 in X. rewrite Hg in X. destruct X as (A & _ & B). auto.
Qed.
Lemma step_wait S2 c ev : go_on O p (pcode r) o S1 = (S2, inl (NWait c ev)) -> sim_step O S = Some (hand_over p ev (set_prc p (fun r => MkPrc (pkind r) (pown r) (ptarget r) c) S2)).
Proof. intros Hg. rewrite turn_step. cbn [work_off]. change (nth_error (prs S1) p) with (proc_at p S). rewrite (t_proc _ _ _ _ _ T), Hg. reflexivity. Qed.
Lemma land_park S2 c ev e : go_on O p (pcode r) o S1 = (S2, inl (NWait c ev)) -> todo S2 = [WEnd w] -> event_at ev S2 = Some e -> ecbs e = Some [] ->
  (Inv (parked p r c ev e S2) -> Que None (parked p r c ev e S2) -> Quiet (parked p r c ev e S2)) -> Fin S.
Proof.
  intros Hg Et He Hc Hq. destruct (after_go _ _ Hg) as [_ Hr]. pose proof (step_wait _ _ _ Hg) as Hs. rewrite (park_eq p r c ev e S2 Hr He Hc) in Hs. exact (land _ Hs Et Hq).
Qed.
Lemma land_done S2 v : go_on O p (pcode r) o S1 = (S2, inl (NDone v)) -> todo S2 = [WEnd w] ->
  (forall e, event_at (pown r) S2 = Some e -> erole e = ROwn p -> evalue e = None -> Inv (finished p r (Good v) e S2) -> Que None (finished p r (Good v) e S2) -> Quiet (finished p r (Good v) e S2)) -> Fin S.
Proof.
  intros Hg Et Hq. destruct (after_go _ _ Hg) as [HI Hr]. destruct (i_own _ HI p r Hr) as (e & He & Ro & Vo). pose proof (proj2 Vo (t_live _ _ _ _ _ T)) as Ve.
  assert (Hs : sim_step O S = Some (finished p r (Good v) e S2)).
  { rewrite turn_step. cbn [work_off]. change (nth_error (prs S1) p) with (proc_at p S). rewrite (t_proc _ _ _ _ _ T), Hg. rewrite (end_eq p r _ e S2 Hr He). reflexivity. }
  apply (land _ Hs Et). apply Hq; assumption.
Qed.
Lemma land_move S2 c ev e o' : go_on O p (pcode r) o S1 = (S2, inl (NWait c ev)) -> todo S2 = [WEnd w] -> event_at ev S2 = Some e -> ecbs e = None -> evalue e = Some o' -> c <> KEnd ->
  (forall S3, S3 = set_todo [WRun p o'; WEnd w] (defused ev e o' (moved p r c S2)) -> Turn p o' w (MkPrc (pkind r) (pown r) (ptarget r) c) S3 -> Fin S3) -> Fin S.
Proof.
  intros Hg Et He Hc Hv Hk Hf. destruct (after_go _ _ Hg) as [_ Hr]. pose proof (step_wait _ _ _ Hg) as Hs. rewrite (move_eq p r c ev e o' S2 Hr He Hc Hv), Et in Hs.
  set (S3 := set_todo _ _) in Hs. apply (fin_next S S3); [rewrite (t_todo _ _ _ _ _ T); discriminate|exact Hs|]. pose proof (reach_step _ _ (t_reach _ _ _ _ _ T) Hs) as R'.
  destruct (reach_safe _ R') as [[K N]|B]; [|apply fin_broken; exact B]. apply (Hf S3 eq_refl). constructor; auto.
  change (proc_at p (defused ev e o' (moved p r c S2)) = Some (MkPrc (pkind r) (pown r) (ptarget r) c)). rewrite (pat_moved p r c ev e o' S2 Hr), Nat.eqb_refl. reflexivity.
Qed.
End TurnFacts.

(** It is handed a failure. *)
Lemma turn_bad p w r S x : Turn p (Bad (TExn x)) w r S -> Fin S.
Proof. intros T. apply fin_broken. left. split; [exact (t_ok _ _ _ _ _ T)|]. split; [exact (t_neat _ _ _ _ _ T)|]. right. exists p, w, x. exact (t_todo _ _ _ _ _ T). Qed.

(** ** Processes of buffers look for work *)

Definition working (d : stage) : Prop := d = SFire \/ d = SOver.
Lemma Kind_pick p ex d S : Kind None ex d S -> Kind (Some p) ex d S.
Proof.
  assert (F : Fires None S -> Fires (Some p) S) by (intros [A B C D E F G]; constructor; auto; intros i x n Hi _; [apply (F i x n Hi); discriminate|apply (G i x n Hi); discriminate]).
  destruct d; cbn [Kind]; auto.
Qed.
(** From [S] to the head of the loop. *)
Record Pre (d : stage) (n : string) (p : nat) (w : nat) (S S1 : sim) : Prop := MkPre {
  e_mv : Mv p S S1;
  e_prs : prs S1 = prs S;
  e_inter : inter S1 = inter S;
  e_ss : ss S1 = ss S;
  e_early : early S1 = early S;
  e_pact : pact S1 = pact S;
  e_todo : todo S1 = [WEnd w];
  e_evs : forall ev e, event_at ev S = Some e -> event_at ev S1 = Some e;
  e_evs' : forall ev e, event_at ev S1 = Some e -> event_at ev S = Some e \/ (event_at ev S = None /\ forall v, evalue e <> Some (Good v));
  e_acts : forall m, m <> n -> dget (acts S1) m = dget (acts S) m;
  e_act : dget (acts S1) n = dget (acts S) n \/ exists ev, dget (acts S1) n = Some ev /\ event_at ev S1 = Some act0 /\ event_at ev S = None;
  e_heap : forall q, In q (heap S1) -> ~ In q (heap S) -> (exists i, role_at (qev q) (RInt i) S1) /\ exists x, d = SZero 4 x;
  e_que : Que (Some p) S1 }.

Lemma put_none l S : early S = None -> put_started l S = set_ss (set_procs l (snext (ss S)) (ss S)) S.
Proof. unfold put_started. intros ->. reflexivity. Qed.
Section Extra.
Variables (d : stage) (ex : option string) (p : nat) (o : outcome) (w : nat) (r : prc) (n : string) (S S1 : sim).
Hypothesis T : Turn p o w r S.
Hypothesis N0 : p <> 0.
Hypothesis Xc : xcode n (pcode r).
Hypothesis G : Gen (lim d) (Some p) S.
Hypothesis P : Post O d S.
Hypothesis K : Kind (Some p) ex d S.
Hypothesis Hex : forall m, ex = Some m -> dget (extras S) m = Some p.
Hypothesis E : Pre d n p w S S1.
Hypothesis Hg : go_on O p (pcode r) o (set_todo [WEnd w] S) = extra_loop O n S1.

Let HI : Inv S. Proof. apply (turn_parts p o w r S T). Qed.
Let Q : Que (Some p) S. Proof. apply (turn_parts p o w r S T). Qed.
Let Se : Sem (fun n => Some p <> Some 0 /\ called S n) (Some p) S. Proof. apply (turn_parts p o w r S T). Qed.
Let Hn : dget (extras S) n = Some p. Proof. exact (xcode_who p n r S (Some p) Q (t_proc _ _ _ _ _ T) Xc). Qed.
Let Only m : dget (extras S) m = Some p -> m = n.
Proof. intros Hm. destruct (s_ext _ _ _ Se m p Hm) as (x & _ & Hx & Hc & _). rewrite (t_proc _ _ _ _ _ T) in Hx. injection Hx as <-. exact (xcode_inj _ _ _ Hc Xc). Qed.
Lemma pre_old ev : (exists e, event_at ev S = Some e) -> event_at ev S1 = event_at ev S.
Proof. intros (e & He). rewrite He. exact (e_evs _ _ _ _ _ _ E _ _ He). Qed.
Lemma pre_atrig m : m <> n -> atrig m S1 = atrig m S.
Proof.
  intros Nm. unfold atrig. rewrite (e_acts _ _ _ _ _ _ E m Nm). destruct (dget (acts S) m) as [ev|] eqn:Em; [|reflexivity]. unfold trig. destruct (q_acts _ _ Q m ev Em) as (e & He & _). rewrite pre_old; [reflexivity|eauto].
Qed.
Lemma pre_born m ev : dget (acts S1) m = Some ev -> dget (acts S) m = Some ev \/ (dget (extras S) m <> None /\ forall q, In q (heap S) -> qev q <> ev).
Proof.
  intros Hm. destruct (string_dec m n) as [->|Nm]; [|left; rewrite <- (e_acts _ _ _ _ _ _ E m Nm); exact Hm]. destruct (e_act _ _ _ _ _ _ E) as [X|(ev' & X1 & X2 & X3)]; [left; congruence|right].
  split; [congruence|]. intros q Hq. destruct (q_heap _ _ Q q Hq) as (_ & _ & e & He & _). congruence.
Qed.
(** Its own event is new, or it has been there. *)
Lemma pre_act : exists ev e, dget (acts S1) n = Some ev /\ event_at ev S1 = Some e /\ erole e = RAct /\ (e = act0 \/ (dget (acts S) n = Some ev /\ event_at ev S = Some e)).
Proof.
  destruct (s_ext _ _ _ Se n p Hn) as (_ & ev & _ & _ & Ha). destruct (e_act _ _ _ _ _ _ E) as [X|(ev' & X1 & X2 & X3)].
  - rewrite Ha in X. destruct (q_acts _ _ Q n ev Ha) as (e & He & R). exists ev, e. split; [exact X|]. split; [exact (e_evs _ _ _ _ _ _ E _ _ He)|]. auto.
  - exists ev', act0. auto.
Qed.

Let Hmain k q : d = SZero k q -> early S = None.
Proof.
  intros X. rewrite X in P. destruct P as (r0 & P0 & P1 & _). destruct (early S) as [l|] eqn:Ee; [exfalso|reflexivity]. destruct (s_early _ _ _ Se l Ee) as (_ & (x & Hx & Hc) & _). assert (x = r0) by congruence. subst x. destruct Hc; congruence.
Qed.

(** It finds nothing. *)
Record Found (r' : prc) (S3 : sim) : Prop := MkFound {
  n_mv : Mv p S1 S3;
  n_proc : forall i, proc_at i S3 = if Nat.eqb i p then Some r' else proc_at i S;
  n_own : pown r' = pown r;
  n_code : pcode r' = KExtraAct n;
  n_pact : pact S3 = pact S1;
  n_inter : inter S3 = ddel (inter S1) n;
  n_acts : acts S3 = acts S1;
  n_heap : heap S3 = heap S1;
  n_ss : ss S3 = ss S1;
  n_evs : forall i x, event_at i S3 = Some x -> exists y, event_at i S1 = Some y /\ erole x = erole y /\ evalue x = evalue y }.
Lemma found_trig r' S3 ev e : Found r' S3 -> event_at ev S1 = Some e -> trig S3 ev = trig S1 ev.
Proof.
  intros F He. unfold trig. rewrite He. destruct (v_evs _ _ _ (n_mv _ _ F) _ _ He) as (e' & He' & _). rewrite He'. destruct (n_evs _ _ F _ _ He') as (y & Hy & _ & V1). unfold triggered. rewrite V1. assert (y = e) by congruence. subst y. reflexivity.
Qed.
Lemma found_aside r' S3 : Found r' S3 -> Aside p r r' S S3.
Proof.
  intros F. pose proof (n_proc _ _ F) as Hp3.
  assert (Mi : forall m, m <> n -> dget (inter S3) m = dget (inter S) m) by (intros m Nm; rewrite (n_inter _ _ F), dget_ddel; destruct (String.eqb_spec m n); [contradiction|]; rewrite (e_inter _ _ _ _ _ _ E); reflexivity).
  assert (In_ : dget (inter S3) n = None) by (rewrite (n_inter _ _ F), dget_ddel, String.eqb_refl; reflexivity).
  constructor.
  - exact (Mv_trans _ _ _ _ (e_mv _ _ _ _ _ _ E) (n_mv _ _ F)).
  - exact (t_proc _ _ _ _ _ T).
  - rewrite Hp3, Nat.eqb_refl. reflexivity.
  - exact (n_own _ _ F).
  - rewrite (n_pact _ _ F). exact (e_pact _ _ _ _ _ _ E).
  - intros m. destruct (string_dec m n) as [->|Nm]; [left; exact Hn|right; exact (Mi m Nm)].
  - intros m. destruct (string_dec m n) as [->|Nm]; [left; exact In_|right; exact (Mi m Nm)].
  - intros m. rewrite (n_acts _ _ F). destruct (string_dec m n) as [->|Nm]; [left; exact Hn|right; exact (e_acts _ _ _ _ _ _ E m Nm)].
  - rewrite (n_acts _ _ F). exact pre_born.
  - intros m. destruct (string_dec m n) as [->|Nm]; [left; exact Hn|right]. rewrite <- (pre_atrig m Nm). unfold atrig. rewrite (n_acts _ _ F). destruct (dget (acts S1) m) as [ev|] eqn:Em; [|reflexivity].
    destruct (q_acts _ _ (e_que _ _ _ _ _ _ E) m ev Em) as (e & He & _). exact (found_trig r' S3 ev e F He).
  - intros i x Hi Hi0. rewrite Hp3 in Hi. destruct (Nat.eqb_spec i p) as [->|Ni]; [rewrite (t_proc _ _ _ _ _ T) in Hi0; discriminate|congruence].
  - intros m. unfold cnt. rewrite (n_ss _ _ F), (e_ss _ _ _ _ _ _ E). lia.
  - intros x. rewrite (n_ss _ _ F), (e_ss _ _ _ _ _ _ E). auto.
  - rewrite (n_ss _ _ F), (e_ss _ _ _ _ _ _ E). reflexivity.
  - rewrite (n_ss _ _ F), (e_ss _ _ _ _ _ _ E). reflexivity.
Qed.
Lemma found b r' S3 : Found r' S3 -> Inv S3 -> Que b S3 -> b = None \/ b = Some p -> take_proc n (get_started S1) = None -> (b = None -> forall ev e, dget (acts S1) n = Some ev -> event_at ev S1 = Some e -> ecbs e = Some []) ->
  Gen (lim d) b S3 /\ Post O d S3 /\ Kind b None d S3.
Proof.
  intros F HI3 Q3 Hb Tn Hc. pose proof (found_aside r' S3 F) as A. destruct (xcode_nochief _ _ Xc) as [Nc Ne]. pose proof (n_proc _ _ F) as Hp3.
  assert (Old : forall i, proc_at i S = None -> proc_at i S3 = None).
  { intros i Hi. rewrite Hp3. destruct (Nat.eqb_spec i p) as [->|]; [pose proof (t_proc _ _ _ _ _ T); congruence|exact Hi]. }
  assert (Hh : forall q, In q (heap S3) -> ~ In q (heap S) -> (exists i, role_at (qev q) (RInt i) S3) /\ exists x, d = SZero 4 x).
  { intros q Hq Hn0. rewrite (n_heap _ _ F) in Hq. destruct (e_heap _ _ _ _ _ _ E q Hq Hn0) as ((i & x & Hi & R) & B). split; [|exact B]. exists i.
    destruct (v_evs _ _ _ (n_mv _ _ F) _ _ Hi) as (e' & He' & R' & _). exists e'. split; [exact He'|congruence]. }
  assert (Nb : NoBaby S -> NoBaby S3) by (intros H; apply (aside_NoBaby p r _ S S3 A H); [rewrite (n_code _ _ F); discriminate|exact Old]).
  assert (Ess : ss S3 = ss S) by (rewrite (n_ss _ _ F); exact (e_ss _ _ _ _ _ _ E)).
  assert (Nh : ~ (exists x, d = SZero 4 x) -> NoHits S -> NoHits S3).
  { intros Nd4 H. apply (aside_NoHits p r _ S S3 A Q H). intros q i Hq Hq0 _. apply Nd4. apply (Hh q Hq Hq0). }
  split; [|split].
  - apply (Gen_extra (lim d) p b r _ n S S3 HI HI3 Q Q3 G A Hn).
    + destruct Hb as [Hb|Hb]; [right; split; [exact Hb|]|left; exact Hb]. unfold Load. rewrite (n_code _ _ F). exact I.
    + intros i x Hi Hi0. rewrite (Old i Hi0) in Hi. discriminate.
    + intros m ev' q Hm Hq Eq Hq0. destruct (Hh q Hq Hq0) as ((i & x & Hx0 & R) & _). destruct (q_acts _ _ Q3 m ev' Hm) as (y & Hy & R'). rewrite Eq in Hx0. congruence.
  - apply (Post_aside p r _ S S3 A Q O d P N0 Nc Ne).
    + intros X. apply Nb. exact (Post_baby O d S P X).
    + intros _ (I1 & I2 & I3). split; [|split; [exact (Nb I2)|]].
      * rewrite Ess. destruct I1 as [I1|I1]; [left; exact I1|right]. apply (aside_Wake p r _ S S3 A I1). intros m e0 g X. rewrite X in Xc. contradiction.
      * apply (aside_NoCont p r _ S S3 A HI3 I3); [rewrite (n_code _ _ F); discriminate|]. intros i x g Hi Hv. destruct (n_evs _ _ F i x Hi) as (y & Hy & _ & Vy). destruct (e_evs' _ _ _ _ _ _ E i y Hy) as [Z|[_ Z]]; [exists y; split; [exact Z|congruence]|].
        elim (Z (XCont g)). congruence.
    + intros _. rewrite Ess. auto.
  - assert (Same : sprocs (ss S3) = sprocs (ss S)) by (rewrite Ess; reflexivity).
    assert (Fi : working d -> Fires (Some p) S -> Fires b S3).
    { intros Wd Fs. assert (N4 : ~ exists x, d = SZero 4 x) by (intros (x & X); destruct Wd; congruence).
      apply (Fires_aside p r _ S S3 A Q b Fs Hb).
      - intros q i Hq Hq0 _. apply N4. apply (Hh q Hq Hq0).
      - intros q m ev' Hq Hq0 _ _. apply N4. apply (Hh q Hq Hq0).
      - rewrite (n_code _ _ F). discriminate.
      - apply (Crew_same p r _ S S3 A); [exact (f_crew _ _ Fs)|exact Same].
      - rewrite (n_code _ _ F). intros m _ [].
      - rewrite (n_code _ _ F). intros m Eb [= <-]. destruct pre_act as (ev & e & X1 & X2 & X3 & X4). specialize (Hc Eb ev e X1 X2). unfold atrig. rewrite (n_acts _ _ F), X1, (found_trig r' S3 ev e F X2). unfold trig. rewrite X2.
        unfold triggered. destruct (evalue e) as [v|] eqn:Ve; [exfalso|reflexivity].
        destruct X4 as [->|[X4 X5]]; [discriminate|]. destruct (g_full _ _ _ G ev e X5) as (q & Y1 & Y2); [congruence|congruence|]. exact (f_acts _ _ Fs n ev q X4 Y1 Y2). }
    destruct d as [| |k q| |q| | | |]; cbn [Kind] in K |- *; rewrite ?Same; try (destruct K as [K1 K2]; split; [apply Nh; [intros (x & X); discriminate|exact K1]|exact K2]); try (apply Fi; [unfold working; auto|exact K]).
    destruct (Nat.eqb_spec k 4) as [->|N4].
    + apply (Bags_aside p r _ S S3 A ex q K Hex). intros m Hm. rewrite (Only m Hm). unfold cnt. rewrite Same. unfold get_started in Tn. rewrite (e_early _ _ _ _ _ _ E), (e_ss _ _ _ _ _ _ E) in Tn. rewrite (Hmain 4 q eq_refl) in Tn. apply take_none in Tn. exact Tn.
    + destruct K as [K1 K2]. split; [apply Nh; [intros (x & X); congruence|exact K1]|exact K2].
Qed.
Lemma extra_park ev e : take_proc n (get_started S1) = None -> dget (acts S1) n = Some ev -> event_at ev S1 = Some e -> ecbs e = Some [] -> Fin S.
Proof.
  intros Tn Ha He Hc. set (S2 := set_inter (ddel (inter S1) n) S1). pose proof (extra_idle O n ev S1 Tn Ha) as Hx. fold S2 in Hx. rewrite <- Hg in Hx.
  apply (land_park p o w r S T S2 (KExtraAct n) ev e Hx (e_todo _ _ _ _ _ _ E) He Hc). intros HI3 Q3. set (S3 := parked p r (KExtraAct n) ev e S2) in *. exists d.
  assert (Hr1 : proc_at p S2 = Some r) by (unfold proc_at, S2; cbn; rewrite (e_prs _ _ _ _ _ _ E); exact (t_proc _ _ _ _ _ T)).
  apply (found None (MkPrc (pkind r) (pown r) ev (KExtraAct n)) S3); auto; [|intros _ ev' e' X1 X2; congruence].
  constructor; try reflexivity.
  - eapply Mv_trans; [|apply Mv_parked; auto]. apply Mv_same; reflexivity.
  - intros i. unfold S3. rewrite (pat_parked p r (KExtraAct n) ev e S2 Hr1). unfold proc_at, S2; cbn; rewrite (e_prs _ _ _ _ _ _ E). reflexivity.
  - intros i x Hi. unfold S3 in Hi. rewrite (at_parked p r (KExtraAct n) ev e S2 He) in Hi. destruct (Nat.eqb_spec i ev) as [->|]; [injection Hi as <-; exists e; auto|exists x; auto].
Qed.
(*END*)
End Extra.
Lemma Que_renewed p r n S : Que (Some p) S -> proc_at p S = Some r -> pcode r = KExtraAct n -> Que (Some p) (renewed n S).
Proof.
  intros Q Hr Hc. apply (Que_acts (Some p) n _ (added act0 S)); [apply Que_added; auto; left; reflexivity| |exists act0; split; [rewrite at_added, Nat.eqb_refl; reflexivity|reflexivity]| |].
  - intros q x Hx Ha Ec. apply Ha. f_equal. assert (A : xcode n (pcode r)) by (rewrite Hc; reflexivity). assert (B : xcode n (pcode x)) by (rewrite Ec; reflexivity).
    pose proof (xcode_who p n r S _ Q Hr A). pose proof (xcode_who q n x S _ Q Hx B). congruence.
  - intros m Hm. destruct (q_acts _ _ Q m _ Hm) as (x & Hx & _). apply at_old in Hx. lia.
  - destruct (q_pact _ _ Q) as (x & Hx & _). apply at_old in Hx. cbn. lia.
Qed.
Lemma Pre_renewed d n p w S r : Que (Some p) S -> proc_at p S = Some r -> pcode r = KExtraAct n -> Pre d n p w S (renewed n (set_todo [WEnd w] S)).
Proof.
  intros Q Hr Hc. assert (Q0 : Que (Some p) (set_todo [WEnd w] S)) by (apply (Que_same (Some p) S); auto).
  assert (New : event_at (List.length (evs S)) S = None) by (apply nth_error_None; lia).
  constructor; try reflexivity.
  - eapply Mv_trans; [apply (Mv_same p S (set_todo [WEnd w] S)); reflexivity|]. eapply Mv_trans; [apply (Mv_added p act0); [reflexivity|discriminate]|]. apply Mv_same; reflexivity.
  - intros ev e He. apply (at_added_old ev e act0 (set_todo [WEnd w] S)). exact He.
  - intros ev e He. change (event_at ev (added act0 S) = Some e) in He. rewrite at_added in He. destruct (Nat.eqb_spec ev (List.length (evs S))) as [->|]; [|left; exact He]. right. injection He as <-. split; [exact New|discriminate].
  - intros m Nm. apply dget_dset_neq. congruence.
  - right. exists (List.length (evs S)). split; [apply dget_dset_eq|]. split; [|exact New]. change (event_at (List.length (evs S)) (added act0 S) = Some act0). rewrite at_added, Nat.eqb_refl. reflexivity.
  - intros q Hq Hn. contradiction.
  - apply (Que_renewed p r); auto.
Qed.
Lemma Pre_same d n p w S : Que (Some p) S -> Pre d n p w S (set_todo [WEnd w] S).
Proof.
  intros Q. constructor; try reflexivity; auto.
  - apply Mv_same; reflexivity.
  - intros q Hq Hn. contradiction.
  - apply (Que_same (Some p) S); auto.
Qed.
Lemma renew_eq p n v S : go_on O p (KExtraAct n) (Good v) S = extra_loop O n (renewed n S).
Proof. reflexivity. Qed.
Lemma renewed_act n S : dget (acts (renewed n S)) n = Some (List.length (evs S)) /\ event_at (List.length (evs S)) (renewed n S) = Some act0.
Proof. split; [apply dget_dset_eq|]. change (event_at (List.length (evs S)) (added act0 S) = Some act0). rewrite at_added, Nat.eqb_refl. reflexivity. Qed.
(** It is called and finds nothing. *)
Lemma extra_called d ex p v w r n S : Turn p (Good v) w r S -> p <> 0 -> pcode r = KExtraAct n -> Gen (lim d) (Some p) S -> Post O d S -> Kind (Some p) ex d S -> (forall m, ex = Some m -> dget (extras S) m = Some p) ->
  take_proc n (get_started S) = None -> Fin S.
Proof.
  intros T N0 Hc G P K Hex Tn. destruct (turn_parts _ _ _ _ _ T) as (_ & _ & Q & _). destruct (renewed_act n (set_todo [WEnd w] S)) as [X1 X2].
  assert (Xc : xcode n (pcode r)) by (rewrite Hc; reflexivity). pose proof (Pre_renewed d n p w S r Q (t_proc _ _ _ _ _ T) Hc) as E.
  apply (extra_park d ex p (Good v) w r n S (renewed n (set_todo [WEnd w] S)) T N0 Xc G P K Hex E) with (ev := List.length (evs S)) (e := act0); auto.
  rewrite Hc. apply renew_eq.
Qed.
(** It finds nothing, and has been called in the meantime. *)
Lemma extra_rest d ex p o w r n S S1 : Turn p o w r S -> p <> 0 -> xcode n (pcode r) -> Gen (lim d) (Some p) S -> Post O d S -> Kind (Some p) ex d S -> (forall m, ex = Some m -> dget (extras S) m = Some p) ->
  Pre d n p w S S1 -> go_on O p (pcode r) o (set_todo [WEnd w] S) = extra_loop O n S1 -> take_proc n (get_started S1) = None -> Fin S.
Proof.
  intros T N0 Xc G P K Hex E Hg Tn. destruct (turn_parts _ _ _ _ _ T) as (_ & _ & Q & _). destruct (pre_act d p o w r n S S1 T Xc E) as (ev & e & Ha & He & _).
  pose proof (xcode_who p n r S (Some p) Q (t_proc _ _ _ _ _ T) Xc) as Hn.
  destruct (act_free p n ev e S1 (e_que _ _ _ _ _ _ E)) as [[C1 C2]|C]; auto; [rewrite (v_ext _ _ _ (e_mv _ _ _ _ _ _ E)); exact Hn| |exact (extra_park d ex p o w r n S S1 T N0 Xc G P K Hex E Hg ev e Tn Ha He C)].
  set (S2 := set_inter (ddel (inter S1) n) S1). pose proof (extra_idle O n ev S1 Tn Ha) as Hx. fold S2 in Hx. rewrite <- Hg in Hx. destruct (evalue e) as [o'|] eqn:Ve; [clear C2|contradiction].
  assert (Hr1 : proc_at p S2 = Some r) by (unfold proc_at, S2; cbn; rewrite (e_prs _ _ _ _ _ _ E); exact (t_proc _ _ _ _ _ T)).
  apply (land_move p o w r S T S2 (KExtraAct n) ev e o' Hx (e_todo _ _ _ _ _ _ E) He C1 Ve); [discriminate|]. intros S3 E3 T3. set (r3 := MkPrc (pkind r) (pown r) (ptarget r) (KExtraAct n)) in *.
  destruct (turn_parts _ _ _ _ _ T3) as (HI3 & _ & Q3 & _ & Ac).
  destruct o' as [v|[x| |]]; [|exact (turn_bad _ _ _ _ _ T3)|contradiction|contradiction].
  assert (F : Found p r n S S1 r3 S3).
  { rewrite E3. constructor; try reflexivity.
    - eapply Mv_trans; [apply (Mv_same p S1 S2); reflexivity|]. eapply Mv_trans; [apply (Mv_prs p r r3 S2 Hr1)|]. apply Mv_same; reflexivity.
    - intros i. change (proc_at i (defused ev e (Good v) (moved p r (KExtraAct n) S2)) = if Nat.eqb i p then Some r3 else proc_at i S). rewrite (pat_moved p r (KExtraAct n) ev e (Good v) S2 Hr1). unfold proc_at, S2; cbn; rewrite (e_prs _ _ _ _ _ _ E). reflexivity.
    - intros i x Hi. exists x. auto. }
  destruct (found d ex p o w r n S S1 T N0 Xc G P K Hex E (Some p) r3 S3 F HI3 Q3 (or_intror eq_refl) Tn) as (G3 & P3 & K3); [discriminate|].
  apply (extra_called d None p v w r3 n S3 T3 N0 eq_refl G3 P3 K3); [discriminate|]. rewrite E3. exact Tn.
Qed.
(** It finds a process, and starts it. *)
Lemma extra_take d ex p o w r n S S1 x l : Turn p o w r S -> p <> 0 -> xcode n (pcode r) -> Gen (lim d) (Some p) S -> Post O d S -> Kind (Some p) ex d S -> (forall m, ex = Some m -> dget (extras S) m = Some p) ->
  Pre d n p w S S1 -> go_on O p (pcode r) o (set_todo [WEnd w] S) = extra_loop O n S1 -> take_proc n (get_started S1) = Some (x, l) ->
  (working d -> dget (inter S) n <> None /\ atrig n S1 = true) -> Fin S.
Proof.
  intros T N0 Xc G P K Hex E Hg Tk Hw. destruct (turn_parts _ _ _ _ _ T) as (HI & _ & Q & Se & _). destruct (xcode_nochief _ _ Xc) as [Nc Ne].
  pose proof (xcode_who p n r S (Some p) Q (t_proc _ _ _ _ _ T) Xc) as Hn.
  assert (Only : forall m, dget (extras S) m = Some p -> m = n).
  { intros m Hm. destruct (s_ext _ _ _ Se m p Hm) as (y & _ & Hx & Hc & _). rewrite (t_proc _ _ _ _ _ T) in Hx. injection Hx as <-. exact (xcode_inj _ _ _ Hc Xc). }
  destruct (pre_act d p o w r n S S1 T Xc E) as (ev & e & Ha & He & Re & _). pose proof (e_que _ _ _ _ _ _ E) as Q1.
  assert (Ee : early S1 = None).
  { rewrite (e_early _ _ _ _ _ _ E). destruct (early S) as [l0|] eqn:Ee; [exfalso|reflexivity]. destruct (s_early _ _ _ Se l0 Ee) as (-> & _). unfold get_started in Tk. rewrite (e_early _ _ _ _ _ _ E), Ee in Tk. discriminate. }
  assert (Gs : get_started S1 = sprocs (ss S)) by (unfold get_started; rewrite Ee, (e_ss _ _ _ _ _ _ E); reflexivity). rewrite Gs in Tk.
  assert (Bad_ : x = PProc -> Fin S).
  { intros ->. apply (land_fail p o w r S T S1 (TExn EValue)). rewrite Hg. unfold extra_loop, bind, get. rewrite Gs, Tk. reflexivity. }
  assert (Dx : x = PProc \/ x <> PProc) by (destruct x; [left; reflexivity|right; discriminate|right; discriminate]). destruct Dx as [Dx|Nx]; [exact (Bad_ Dx)|]. clear Bad_.
  assert (Hd : (exists qm, d = SZero 4 qm /\ Bags ex qm S) \/ (working d /\ Fires (Some p) S)).
  { unfold working. destruct d as [| |k q| |q| | | |]; cbn [Kind] in K; auto; try (exfalso; destruct K as [_ K]; rewrite K in Tk; discriminate).
    - destruct (Nat.eqb_spec k 4) as [->|]; [left; eauto|]. exfalso; destruct K as [_ K]; rewrite K in Tk; discriminate.
    - exfalso. destruct K as [_ K]. rewrite K in Tk. cbn [take_proc] in Tk. cbv zeta in Tk. destruct (String.eqb "P" n); [injection Tk as <- <-; contradiction|discriminate]. }
  destruct (take_split _ _ _ _ Tk) as (l1 & l2 & Hl & Hl' & Nm). assert (Inx : In x (sprocs (ss S))) by (rewrite Hl; apply in_or_app; right; left; reflexivity).
  assert (Sub : forall y, In y l -> In y (sprocs (ss S))) by (intros y Hy; rewrite Hl' in Hy; rewrite Hl; apply in_app_or in Hy; apply in_or_app; destruct Hy; [left|right; right]; assumption).
  destruct (g_list _ _ _ G x Inx) as [X|(id & n' & m & i & c & bs & t0 & X & Qm & Lid)]; [contradiction|]. rewrite X in Nm. cbn in Nm. subst n'.
  destruct (take_some _ _ _ _ Tk Nx) as [Tc Tp].
  pose proof (extra_takes O n x l ev e S1) as Hx. rewrite Gs in Hx. specialize (Hx Tk Nx Ha He). rewrite <- Hg in Hx.
  set (Sp := put_started l S1) in *. assert (Ep : Sp = set_ss (set_procs l (snext (ss S1)) (ss S1)) S1) by (unfold Sp; apply put_none; exact Ee).
  set (Sf := if trig S1 ev then Sp else fired ev e Sp) in *. set (S2 := spawned (KLocal0 false n (proc_gen O x)) Sf).
  assert (Es2 : taken O n x l ev e S1 = S2) by (unfold taken; fold Sp; reflexivity). rewrite Es2 in Hx.
  assert (Hep : event_at ev Sp = Some e) by (rewrite Ep; exact He).
  assert (Vn : trig S1 ev = false -> evalue e = None) by (unfold trig, triggered; rewrite He; destruct (evalue e); [discriminate|reflexivity]).
  assert (Mf : Mv p S Sf).
  { eapply Mv_trans; [exact (e_mv _ _ _ _ _ _ E)|]. eapply Mv_trans; [apply (Mv_same p S1 Sp); rewrite Ep; reflexivity|]. unfold Sf. destruct (trig S1 ev) eqn:Tr; [apply Mv_same; reflexivity|apply Mv_fired; auto]. }
  assert (Pf : prs Sf = prs S) by (unfold Sf; rewrite <- (e_prs _ _ _ _ _ _ E); destruct (trig S1 ev); rewrite Ep; reflexivity).
  assert (Lf : List.length (evs Sf) = List.length (evs S1)) by (unfold Sf; destruct (trig S1 ev); rewrite Ep; cbn; [reflexivity|apply upd_length]).
  assert (Lp : List.length (prs S1) = List.length (prs S)) by (rewrite (e_prs _ _ _ _ _ _ E); reflexivity).
  assert (Ef : forall j, j <> ev -> event_at j Sf = event_at j S1).
  { intros j Nj. unfold Sf. destruct (trig S1 ev); [rewrite Ep; reflexivity|]. change (event_at j (fired ev e Sp)) with (event_at j (changed ev (valued (Good XUnit) e) Sp)). rewrite (at_changed _ _ _ _ _ Hep). destruct (Nat.eqb_spec j ev); [contradiction|]. rewrite Ep. reflexivity. }
  assert (Hf : forall q, In q (heap Sf) -> In q (heap S1) \/ (trig S1 ev = false /\ q = MkQ (now S1 + 0) NORMAL (eid S1) ev)).
  { intros q Hq. unfold Sf in Hq. destruct (trig S1 ev); [left; rewrite Ep in Hq; exact Hq|]. cbn in Hq. apply in_app_or in Hq. rewrite Ep in Hq. destruct Hq as [Hq|[<-|[]]]; [left; exact Hq|right; auto]. }
  assert (Rf : forall A (h : sim -> A), h (fired ev e Sp) = h Sp -> h Sf = h Sp) by (intros A h X0; unfold Sf; destruct (trig S1 ev); auto).
  assert (Rp : proc_at p Sf = Some r) by (unfold proc_at; rewrite Pf; exact (t_proc _ _ _ _ _ T)).
  rewrite Lp, <- Lf in Hx. set (ob := List.length (evs Sf)) in *. set (b := List.length (prs S)) in *. assert (Lb : List.length (prs Sf) = b) by (rewrite Pf; reflexivity).
  set (e3 := MkEvt (ROwn b) None false (Some [])).
  assert (He3 : event_at ob S2 = Some e3).
  { unfold S2. rewrite at_spawned, Lb. fold ob. rewrite Nat.eqb_refl. destruct (Nat.eqb_spec ob (Datatypes.S ob)); [lia|reflexivity]. }
  assert (Hr2 : proc_at p S2 = Some r) by (apply pat_spawned_old; exact Rp).
  apply (land_park p o w r S T S2 (KExtraPro n b) ob e3 Hx); [unfold S2, Sf; destruct (trig S1 ev); rewrite Ep; exact (e_todo _ _ _ _ _ _ E)|exact He3|reflexivity|].
  intros HI3 Q3. set (S3 := parked p r (KExtraPro n b) ob e3 S2) in *. set (r3 := MkPrc (pkind r) (pown r) ob (KExtraPro n b)).
  assert (Nb : b <> p) by (pose proof (pat_old _ _ _ (t_proc _ _ _ _ _ T)); unfold b; lia).
  assert (Hp3 : forall j, proc_at j S3 = if Nat.eqb j p then Some r3 else if Nat.eqb j b then Some (MkPrc (kind_of (KLocal0 false n (proc_gen O x))) ob (Datatypes.S ob) (KLocal0 false n (proc_gen O x))) else proc_at j S).
  { intros j. unfold S3. rewrite (pat_parked p r (KExtraPro n b) ob e3 S2 Hr2). destruct (Nat.eqb j p); [reflexivity|]. unfold S2. rewrite pat_spawned, Lb. fold ob. destruct (Nat.eqb j b); [reflexivity|]. unfold proc_at. rewrite Pf. reflexivity. }
  assert (Is : inter S3 = inter S) by (change (inter S3) with (inter Sf); rewrite <- (e_inter _ _ _ _ _ _ E), (Rf _ inter eq_refl), Ep; reflexivity).
  assert (As : acts S3 = acts S1) by (change (acts S3) with (acts Sf); rewrite (Rf _ acts eq_refl), Ep; reflexivity).
  assert (Ns : now S3 = now S) by exact (v_now _ _ _ Mf).
  assert (Ss : ss S3 = set_procs l (snext (ss S)) (ss S)) by (change (ss S3) with (ss Sf); rewrite (Rf _ ss eq_refl), Ep; cbn; rewrite (e_ss _ _ _ _ _ _ E); reflexivity).
  assert (Cs : forall k, cnt k S = (if String.eqb k n then 1 else 0) + cnt k S3) by (intros k; unfold cnt; rewrite Ss; exact (Tc k)).
  assert (Er : forall j y, event_at j S3 = Some y -> j = ob \/ j = Datatypes.S ob \/ event_at j Sf = Some y).
  { intros j y Hj. unfold S3 in Hj. rewrite (at_parked p r (KExtraPro n b) ob e3 S2 He3) in Hj. destruct (Nat.eqb_spec j ob); [left; assumption|right]. unfold S2 in Hj. rewrite at_spawned in Hj. fold ob in Hj.
    destruct (Nat.eqb_spec j (Datatypes.S ob)); [left; assumption|right]. destruct (Nat.eqb_spec j ob); [contradiction|exact Hj]. }
  assert (Hh : forall q, In q (heap S3) -> In q (heap S1) \/ (trig S1 ev = false /\ qev q = ev) \/ (qev q = Datatypes.S ob /\ role_at (Datatypes.S ob) (RInit b) S3)).
  { intros q Hq. change (In q (heap S2)) in Hq. unfold S2, spawned in Hq. cbn in Hq. apply in_app_or in Hq. destruct Hq as [Hq|[<-|[]]].
    - destruct (Hf q Hq) as [Y|[Y ->]]; auto.
    - right. right. cbn [qev]. split; [reflexivity|]. unfold role_at, S3. rewrite (at_parked p r (KExtraPro n b) ob e3 S2 He3). destruct (Nat.eqb_spec (Datatypes.S ob) ob); [lia|].
      unfold S2. rewrite at_spawned. fold ob. rewrite Nat.eqb_refl, Lb. eexists. split; reflexivity. }
  assert (A : Aside p r r3 S S3).
  { constructor.
    - eapply Mv_trans; [exact Mf|]. eapply Mv_trans; [apply (Mv_spawned p (KLocal0 false n (proc_gen O x)))|]. apply Mv_parked; auto.
    - exact (t_proc _ _ _ _ _ T).
    - rewrite Hp3, Nat.eqb_refl. reflexivity.
    - reflexivity.
    - change (pact S3) with (pact Sf). rewrite <- (e_pact _ _ _ _ _ _ E), (Rf _ pact eq_refl), Ep. reflexivity.
    - intros k. right. rewrite Is. reflexivity.
    - intros k. right. rewrite Is. reflexivity.
    - intros k. rewrite As. destruct (string_dec k n) as [->|Nk]; [left; exact Hn|right; exact (e_acts _ _ _ _ _ _ E k Nk)].
    - rewrite As. exact (pre_born d p o w r n S S1 T Xc E).
    - intros k. destruct (string_dec k n) as [->|Nk]; [left; exact Hn|right]. rewrite <- (pre_atrig d p o w r n S S1 T E k Nk). unfold atrig. rewrite As. destruct (dget (acts S1) k) as [ek|] eqn:Ek; [|reflexivity].
      destruct (q_acts _ _ Q1 k ek Ek) as (y & Hy & Ry). assert (Nek : ek <> ev) by (intros Y; apply Nk; rewrite Y in Ek; exact (q_inj _ _ Q1 _ _ _ Ek Ha)). pose proof (at_old _ _ _ Hy) as Lk. unfold trig.
      unfold S3. rewrite (at_parked p r (KExtraPro n b) ob e3 S2 He3). destruct (Nat.eqb_spec ek ob); [lia|]. unfold S2. rewrite at_spawned. fold ob. destruct (Nat.eqb_spec ek (Datatypes.S ob)); [lia|]. destruct (Nat.eqb_spec ek ob); [lia|]. rewrite (Ef ek Nek). reflexivity.
    - intros j y Hj Hj0. rewrite Hp3 in Hj. destruct (Nat.eqb_spec j p) as [Y|]; [rewrite Y, (t_proc _ _ _ _ _ T) in Hj0; discriminate|]. destruct (Nat.eqb_spec j b); [|congruence]. injection Hj as <-. eexists _, _. reflexivity.
    - intros k. rewrite (Cs k). lia.
    - intros y Hy. rewrite Ss in Hy. exact (Sub y Hy).
    - rewrite Ss. reflexivity.
    - rewrite Ss. reflexivity. }
  assert (Rm : forall q k, k <= 5 -> room (lim d) S3 q k).
  { intros q k Hk. destruct Hd as [(qm & -> & _)|[[-> | ->] _]]; cbn; auto. intros _. left. lia. }
  exists d. split; [|split].
  - apply (Gen_extra (lim d) p None r r3 n S S3 HI HI3 Q Q3 G A Hn).
    + right. split; [reflexivity|]. unfold Load. cbn [pcode r3 ptarget]. split.
      * intros In0. rewrite Is in In0. exists (MkPrc (kind_of (KLocal0 false n (proc_gen O x))) ob (Datatypes.S ob) (KLocal0 false n (proc_gen O x))). split.
        { rewrite Hp3. destruct (Nat.eqb_spec b p); [contradiction|]. rewrite Nat.eqb_refl. reflexivity. }
        cbn [pcode]. destruct Hd as [(qm & _ & B)|[Wd _]]; [|elim (proj1 (Hw Wd)); exact In0].
        destruct (b_all _ _ _ B x Inx) as (id' & n' & m' & i' & c' & bs' & t' & Y1 & Y2 & Y3 & _). rewrite Y1 in X. injection X as -> -> -> -> -> -> ->. rewrite (Y3 In0) in Y1, Y2. rewrite Y1, Ns. apply instant_clear. apply Y2. reflexivity.
      * intros q Hq Eq. exfalso. destruct (q_heap _ _ Q3 q Hq) as (_ & _ & y & Hy & Ye & _). rewrite Eq in Hy. unfold S3 in Hy. rewrite (at_parked p r (KExtraPro n b) ob e3 S2 He3), Nat.eqb_refl in Hy. injection Hy as <-. apply Ye. reflexivity.
    + intros j y Hj Hj0. rewrite Hp3 in Hj. destruct (Nat.eqb_spec j p) as [Y|]; [rewrite Y, (t_proc _ _ _ _ _ T) in Hj0; discriminate|]. destruct (Nat.eqb_spec j b); [|congruence]. injection Hj as <-.
      unfold Load. cbn [pcode]. exists 5. split; [lia|]. split; [|intros q _ _; apply Rm; lia]. rewrite X. apply lasts_proc; auto. intros Y. rewrite Y in Hn. rewrite (g_proc _ _ _ G) in Hn. discriminate.
    + intros k ek q _ _ _ _. apply Rm. lia.
  - apply (Post_aside p r r3 S S3 A Q O d P N0 Nc Ne).
    + intros Y. exfalso. destruct Hd as [(qm & -> & _)|[[-> | ->] _]]; destruct Y; discriminate.
    + intros Y. exfalso. destruct Hd as [(qm & -> & _)|[[-> | ->] _]]; destruct Y as [Y|[Y|[Y _]]]; discriminate.
    + intros _ Y. rewrite Ss. exact (Tp Y).
  - destruct Hd as [(qm & -> & B)|[Wd F]].
    + cbn [Kind]. apply (Bags_aside p r r3 S S3 A ex qm B Hex). intros k Hk. rewrite (Only k Hk). pose proof (Cs n) as C1. rewrite String.eqb_refl in C1. pose proof (b_cnt _ _ _ B n). lia.
    + destruct (Hw Wd) as [Hi Hat]. unfold atrig in Hat. rewrite Ha in Hat.
      assert (N4 : forall qm, d <> SZero 4 qm) by (intros qm; destruct Wd as [-> | ->]; discriminate).
      assert (Hh2 : forall q, In q (heap S3) -> ~ In q (heap S) -> role_at (qev q) (RInit b) S3).
      { intros q Hq Hq0. destruct (Hh q Hq) as [Y|[[Y _]|[Y1 Y2]]]; [|congruence|rewrite Y1; exact Y2]. destruct (e_heap _ _ _ _ _ _ E q Y Hq0) as (_ & qm & Z). elim (N4 qm Z). }
      assert (F3 : Fires None S3).
      { apply (Fires_aside p r r3 S S3 A Q None F (or_introl eq_refl)).
        - intros q k Hq Hq0 (y & Hy & Ry). destruct (Hh2 q Hq Hq0) as (z & Hz & Rz). congruence.
        - intros q k ek Hq Hq0 Hk Eq. destruct (Hh2 q Hq Hq0) as (z & Hz & Rz). destruct (q_acts _ _ Q3 k ek Hk) as (y & Hy & Ry). congruence.
        - discriminate.
        - destruct (take_crew (waits S) _ _ _ _ Tk Nx (f_crew _ _ F)) as (_ & k1 & k2 & Y1 & Y2). exists k1, k2. rewrite Ss. split; [exact Y1|]. intros y Hy. destruct (Y2 y Hy) as (z1 & z2 & z3 & z4 & z5 & z6 & z7 & Z1 & Z2 & Z3).
          exists z1, z2, z3, z4, z5, z6, z7. rewrite Is, Ns. auto.
        - intros k _ Hk. cbn in Hk. subst k. rewrite Is. exact Hi.
        - discriminate. }
      destruct Wd as [-> | ->]; exact F3.
Qed.
(** [k] more rounds come before the rules. *)
Definition ready (L : limit) (k : nat) : Prop := match L with None => True | Some (c, _) => k < c end.
Lemma ready_room L k S q j : ready L k -> j <= k -> room L S q j.
Proof. destruct L as [[c [qm|]]|]; cbn; auto; intros; lia. Qed.
(** Its process goes on as another one. *)
Lemma extra_more d p w r n pro g k S : Turn p (Good (XCont g)) w r S -> p <> 0 -> pcode r = KExtraPro n pro -> Gen (lim d) (Some p) S -> Post O d S -> Kind (Some p) None d S ->
  dget (inter S) n <> None -> k <= 4 -> lasts (now S) k false g -> ready (lim d) k -> (d <> SStart /\ d <> SNew /\ d <> SNone /\ d <> SDone /\ (d = SWait -> trig S (pact S) = true)) -> Fin S.
Proof.
  intros T N0 Hc G P K Hi Lk Hl Rk (D1 & D2 & D3 & D4 & D5). destruct (turn_parts _ _ _ _ _ T) as (HI & _ & Q & Se & Ac). assert (Xc : xcode n (pcode r)) by (rewrite Hc; reflexivity). destruct (xcode_nochief _ _ Xc) as [Nc Ne].
  pose proof (xcode_who p n r S (Some p) Q (t_proc _ _ _ _ _ T) Xc) as Hn. rewrite Hc in Ac. destruct Ac as [H0 _].
  assert (Only : forall m, dget (extras S) m = Some p -> m = n).
  { intros m Hm. destruct (s_ext _ _ _ Se m p Hm) as (y & _ & Hx & Hcy & _). rewrite (t_proc _ _ _ _ _ T) in Hx. injection Hx as <-. exact (xcode_inj _ _ _ Hcy Xc). }
  set (S1 := set_todo [WEnd w] S). pose proof (go_cont O p n pro g S1) as Hx. rewrite <- Hc in Hx. set (S2 := spawned (KLocal0 false n g) S1) in *. set (b := List.length (prs S1)) in *. set (ob := List.length (evs S1)) in *.
  set (e3 := MkEvt (ROwn b) None false (Some [])).
  assert (He3 : event_at ob S2 = Some e3).
  { unfold S2. rewrite at_spawned. fold ob b. rewrite Nat.eqb_refl. destruct (Nat.eqb_spec ob (Datatypes.S ob)); [lia|reflexivity]. }
  assert (Hr2 : proc_at p S2 = Some r) by (apply pat_spawned_old; exact (t_proc _ _ _ _ _ T)).
  apply (land_park p (Good (XCont g)) w r S T S2 (KExtraCont n b) ob e3 Hx); [reflexivity|exact He3|reflexivity|].
  intros HI3 Q3. set (S3 := parked p r (KExtraCont n b) ob e3 S2) in *. set (r3 := MkPrc (pkind r) (pown r) ob (KExtraCont n b)).
  assert (Nb : b <> p) by (pose proof (pat_old _ _ _ (t_proc _ _ _ _ _ T)); unfold b, S1; cbn; lia).
  assert (Hp3 : forall j, proc_at j S3 = if Nat.eqb j p then Some r3 else if Nat.eqb j b then Some (MkPrc (kind_of (KLocal0 false n g)) ob (Datatypes.S ob) (KLocal0 false n g)) else proc_at j S).
  { intros j. unfold S3. rewrite (pat_parked p r (KExtraCont n b) ob e3 S2 Hr2). destruct (Nat.eqb j p); [reflexivity|]. unfold S2. rewrite pat_spawned. reflexivity. }
  assert (Old : forall j y, event_at j S = Some y -> event_at j S3 = Some y).
  { intros j y Hj. pose proof (at_old _ _ _ Hj). unfold S3. rewrite (at_parked p r (KExtraCont n b) ob e3 S2 He3). destruct (Nat.eqb_spec j ob); [unfold ob, S1 in *; cbn in *; lia|]. apply at_spawned_old. exact Hj. }
  assert (Hh : forall q, In q (heap S3) -> ~ In q (heap S) -> role_at (qev q) (RInit b) S3).
  { intros q Hq Hq0. change (In q (heap S2)) in Hq. unfold S2, spawned in Hq. cbn in Hq. apply in_app_or in Hq. destruct Hq as [Hq|[<-|[]]]; [contradiction|].
    cbn [qev]. change (List.length (evs S)) with ob. unfold role_at, S3. rewrite (at_parked p r (KExtraCont n b) ob e3 S2 He3). destruct (Nat.eqb_spec (Datatypes.S ob) ob); [lia|].
    unfold S2. rewrite at_spawned. fold ob. rewrite Nat.eqb_refl. eexists. split; reflexivity. }
  assert (A : Aside p r r3 S S3).
  { constructor; auto; try reflexivity.
    - eapply Mv_trans; [apply (Mv_same p S S1); reflexivity|]. eapply Mv_trans; [apply (Mv_spawned p (KLocal0 false n g))|]. apply Mv_parked; auto.
    - exact (t_proc _ _ _ _ _ T).
    - rewrite Hp3, Nat.eqb_refl. reflexivity.
    - intros m. right. unfold atrig. change (acts S3) with (acts S). destruct (dget (acts S) m) as [ek|] eqn:Ek; [|reflexivity]. destruct (q_acts _ _ Q m ek Ek) as (y & Hy & _). unfold trig. rewrite (Old _ _ Hy), Hy. reflexivity.
    - intros j y Hj Hj0. rewrite Hp3 in Hj. destruct (Nat.eqb_spec j p) as [Y|]; [rewrite Y, (t_proc _ _ _ _ _ T) in Hj0; discriminate|]. destruct (Nat.eqb_spec j b); [|congruence]. injection Hj as <-. eexists _, _. reflexivity. }
  assert (NR : forall q i, In q (heap S3) -> ~ In q (heap S) -> ~ role_at (qev q) (RInt i) S3) by (intros q i Hq Hq0 (y & Hy & Ry); destruct (Hh q Hq Hq0) as (z & Hz & Rz); congruence).
  assert (Nh : NoHits S -> NoHits S3) by (intros H; exact (aside_NoHits p r r3 S S3 A Q H NR)).
  exists d. split; [|split].
  - apply (Gen_extra (lim d) p None r r3 n S S3 HI HI3 Q Q3 G A Hn).
    + right. split; [reflexivity|]. unfold Load. cbn [pcode r3 ptarget]. split; [exact Hi|].
      intros q Hq Eq. exfalso. destruct (q_heap _ _ Q3 q Hq) as (_ & _ & y & Hy & Ye & _). rewrite Eq in Hy. unfold S3 in Hy. rewrite (at_parked p r (KExtraCont n b) ob e3 S2 He3), Nat.eqb_refl in Hy. injection Hy as <-. apply Ye. reflexivity.
    + intros j y Hj Hj0. rewrite Hp3 in Hj. destruct (Nat.eqb_spec j p) as [Y|]; [rewrite Y, (t_proc _ _ _ _ _ T) in Hj0; discriminate|]. destruct (Nat.eqb_spec j b); [|congruence]. injection Hj as <-.
      unfold Load. cbn [pcode]. exists k. split; [lia|]. split; [exact Hl|]. intros q _ _. apply (ready_room _ k); auto.
    + intros m em q Hm Hq Eq Hq0. destruct (q_acts _ _ Q3 m em Hm) as (y & Hy & Ry). destruct (Hh q Hq Hq0) as (z & Hz & Rz). congruence.
  - apply (Post_aside p r r3 S S3 A Q O d P N0 Nc Ne).
    + intros [Y|Y]; congruence.
    + intros [Y|[Y|[Y Y2]]]; try congruence. exfalso. specialize (D5 Y). destruct (q_pact _ _ Q) as (y & Hy & _). unfold trig in *. change (pact S3) with (pact S) in Y2. rewrite (Old _ _ Hy) in Y2. rewrite Hy in D5. congruence.
    + intros _ Y. exact Y.
  - assert (Fi : Fires (Some p) S -> Fires None S3).
    { intros F. apply (Fires_aside p r r3 S S3 A Q None F (or_introl eq_refl) NR).
      - intros q m em Hq Hq0 Hm Eq. destruct (q_acts _ _ Q3 m em Hm) as (y & Hy & Ry). destruct (Hh q Hq Hq0) as (z & Hz & Rz). congruence.
      - discriminate.
      - apply (Crew_same p r r3 S S3 A); [exact (f_crew _ _ F)|reflexivity].
      - intros m _ Hm. cbn in Hm. subst m. exact Hi.
      - discriminate. }
    destruct d as [| |j q| |q| | | |]; cbn [Kind] in K |- *; try (destruct K as [K1 K2]; split; [exact (Nh K1)|exact K2]); try exact (Fi K).
    destruct (Nat.eqb_spec j 4) as [->|]; [|destruct K as [K1 K2]; split; [exact (Nh K1)|exact K2]].
    apply (Bags_aside p r r3 S S3 A None q K); [discriminate|]. intros m Hm. rewrite (Only m Hm). clear m Hm.
    change (cnt n S3) with (cnt n S). destruct (cnt n S) eqn:Cn; [reflexivity|exfalso]. assert (In n (names_of (sprocs (ss S)))) by (apply (count_occ_In string_dec); unfold cnt in Cn; lia).
    apply in_flat_map in H. destruct H as (x & Hx1 & Hx2). destruct (b_all _ _ _ K x Hx1) as (id & n' & m & i & c & bs & t' & X1 & _ & _ & X4). subst x. destruct Hx2 as [->|[]].
    destruct X4 as [X4|(j & y & Y1 & Y2 & Y3)]; [discriminate|]. assert (j = p) by congruence. subst j. assert (y = r) by (pose proof (t_proc _ _ _ _ _ T); congruence). subst y.
    destruct Y3 as [(_ & z & Z1 & y0 & Z2 & Z3 & _)|(Y3 & _)]; [|congruence]. exact (hits_none p S z H0 Z1 (ex_intro _ y0 (conj Z2 Z3))).
Qed.
Lemma Pre_struck i n p w qm S : Que (Some p) S -> Pre (SZero 4 qm) n p w S (struck i (set_todo [WEnd w] S)).
Proof.
  intros Q. set (e := MkEvt (RInt i) (Some (Bad TInterrupt)) true (Some [CInt i])). set (S1 := set_todo [WEnd w] S).
  assert (Ev : forall j, event_at j (struck i S1) = if Nat.eqb j (List.length (evs S)) then Some e else event_at j S) by (intros j; exact (at_added j e S1)).
  assert (New : event_at (List.length (evs S)) S = None) by (apply nth_error_None; lia).
  constructor; try reflexivity; auto.
  - eapply Mv_trans; [apply (Mv_same p S S1); reflexivity|apply Mv_struck].
  - intros j y Hj. pose proof (at_old _ _ _ Hj). rewrite Ev. destruct (Nat.eqb_spec j (List.length (evs S))); [lia|exact Hj].
  - intros j y Hj. rewrite Ev in Hj. destruct (Nat.eqb_spec j (List.length (evs S))) as [->|]; [right; injection Hj as <-; split; [exact New|discriminate]|left; exact Hj].
  - intros q Hq Hq0. cbn in Hq. apply in_app_or in Hq. destruct Hq as [Hq|[<-|[]]]; [contradiction|]. split; [|eauto]. exists i, e. split; [|reflexivity]. cbn [qev]. rewrite Ev, Nat.eqb_refl. reflexivity.
  - apply Que_struck. apply (Que_same (Some p) S); auto.
Qed.
(** A process of a buffer. *)
Lemma extra_turn d ex p o w r n S : Turn p o w r S -> xcode n (pcode r) -> Gen (lim d) (Some p) S -> Post O d S -> Kind (Some p) ex d S -> (forall m, ex = Some m -> dget (extras S) m = Some p) ->
  (working d -> busy n (pcode r) -> dget (inter S) n <> None) -> (working d -> pcode r <> KExtraAct n) ->
  (forall pro g, pcode r = KExtraPro n pro -> o = Good (XCont g) ->
     ex = None /\ dget (inter S) n <> None /\ (exists k, k <= 4 /\ lasts (now S) k false g /\ ready (lim d) k) /\ (d <> SStart /\ d <> SNew /\ d <> SNone /\ d <> SDone /\ (d = SWait -> trig S (pact S) = true))) ->
  (o = Bad TInterrupt -> exists qm, d = SZero 4 qm) -> Fin S.
Proof.
  intros T Xc G P K Hex Hb Ha Hm Hi. destruct (turn_parts _ _ _ _ _ T) as (HI & _ & Q & Se & Ac). pose proof (t_proc _ _ _ _ _ T) as Hp.
  assert (N0 : p <> 0).
  { intros ->. destruct (s_main _ _ _ Se) as (x & A & B). assert (x = r) by congruence. subst x. destruct (pcode r); contradiction. }
  assert (Main : forall S1, Pre d n p w S S1 -> go_on O p (pcode r) o (set_todo [WEnd w] S) = extra_loop O n S1 -> (working d -> take_proc n (get_started S1) <> None -> busy n (pcode r) /\ acts S1 = acts S) -> Fin S).
  { intros S1 E Hg Hw. destruct (take_proc n (get_started S1)) as [[x l]|] eqn:Tk.
    - apply (extra_take d ex p o w r n S S1 x l T N0 Xc G P K Hex E Hg Tk). intros Wd. destruct Hw as [Hw1 Hw2]; [exact Wd|discriminate|]. split; [exact (Hb Wd Hw1)|].
      rewrite <- (s_busy _ _ _ Se p r n Hp Hw1). unfold atrig. rewrite Hw2. destruct (dget (acts S) n) as [ev|] eqn:En; [|reflexivity]. destruct (q_acts _ _ Q n ev En) as (y & Hy & _). unfold trig. rewrite (e_evs _ _ _ _ _ _ E _ _ Hy), Hy. reflexivity.
    - exact (extra_rest d ex p o w r n S S1 T N0 Xc G P K Hex E Hg Tk). }
  destruct (pcode r) as [| | | |m|m|m pro|m pro| | | | | | |] eqn:Hc; try contradiction; cbn in Xc; subst m.
  - destruct o as [v|[x| |]]; [|exact (turn_bad _ _ _ _ _ T)|contradiction|contradiction].
    apply (Main (set_todo [WEnd w] S) (Pre_same _ _ _ _ _ Q)); [reflexivity|]. intros Wd _. exfalso. destruct Wd as [-> | ->]; exact (f_new _ _ K p r n Hp Hc).
  - destruct o as [v|[x| |]]; [|exact (turn_bad _ _ _ _ _ T)|contradiction|contradiction].
    apply (Main (renewed n (set_todo [WEnd w] S)) (Pre_renewed _ _ _ _ _ _ Q Hp Hc)); [apply renew_eq|]. intros Wd _. elim (Ha Wd). reflexivity.
  - destruct o as [v|[x| |]]; [|exact (turn_bad _ _ _ _ _ T)|contradiction|].
    + assert (M2 : (forall g, v <> XCont g) -> Fin S).
      { intros Nv. apply (Main (set_todo [WEnd w] S) (Pre_same _ _ _ _ _ Q)); [destruct v as [| |g]; [reflexivity|reflexivity|elim (Nv g eq_refl)]|]. intros Wd _. split; reflexivity. }
      destruct v as [| |g]; [apply M2; discriminate|apply M2; discriminate|]. destruct (Hm pro g eq_refl eq_refl) as (-> & Hi0 & (k & Hk1 & Hk2 & Hk3) & Hd).
      exact (extra_more d p w r n pro g k S T N0 Hc G P K Hi0 Hk1 Hk2 Hk3 Hd).
    + destruct (Hi eq_refl) as (qm & ->). pose proof (i_fits _ HI p r Hp) as F. rewrite Hc in F. destruct F as (rp & Hrp & Kp & Op).
      assert (Npro : p <> pro) by (intros <-; assert (rp = r) by congruence; subst rp; destruct (i_kind _ HI p r Hp) as [[X|X] _]; rewrite Hc in X; [discriminate|]; rewrite Kp in X; discriminate).
      destruct (ended pro (set_todo [WEnd w] S)) eqn:Ed.
      * apply (Main (set_todo [WEnd w] S) (Pre_same _ _ _ _ _ Q)); [cbn [go_on]; unfold bind, get; rewrite Ed; reflexivity|intros [X|X]; discriminate].
      * apply (Main (struck pro (set_todo [WEnd w] S)) (Pre_struck _ _ _ _ _ _ Q)); [|intros [X|X]; discriminate]. cbn [go_on]; unfold bind at 1 2, get at 1; rewrite Ed, (interrupt_eq p pro _ Ed Npro). reflexivity.
  - destruct o as [v|[x| |]]; [|exact (turn_bad _ _ _ _ _ T)|contradiction|]; (apply (Main (set_todo [WEnd w] S) (Pre_same _ _ _ _ _ Q)); [reflexivity|]; intros Wd _; split; reflexivity).
Qed.

(** ** Processes of modules *)

Definition open_stage (d : stage) (S : sim) : Prop := d <> SStart /\ d <> SNew /\ d <> SNone /\ d <> SDone /\ (d = SWait -> trig S (pact S) = true).
Lemma local_quiet d p r r' S S3 : Inv S -> Que (Some p) S -> Inv S3 -> Que None S3 -> p <> 0 -> ~ chief (pcode r) -> pcode r <> KEnd -> (forall m, dget (extras S) m <> Some p) ->
  Gen (lim d) (Some p) S -> Post O d S -> Kind (Some p) None d S -> Aside p r r' S S3 -> inter S3 = inter S -> sprocs (ss S3) = sprocs (ss S) -> (forall i, proc_at i S = None -> proc_at i S3 = None) ->
  (forall q, In q (heap S3) -> ~ In q (heap S) -> (forall i, ~ role_at (qev q) (RInt i) S3) /\ forall m, dget (acts S3) m <> Some (qev q)) ->
  (forall n, ~ xcode n (pcode r')) -> Load (lim d) S3 r' -> (d <> SStart /\ d <> SNew /\ d <> SNone /\ d <> SDone) -> (d = SWait -> trig S3 (pact S3) = false -> Idle S -> Idle S3) ->
  (forall i x n, i <> p -> proc_at i S = Some x -> pcode x = KExtraPro n p -> dget (inter S3) n = None -> Soon S3 p) ->
  (forall i x n q, i <> p -> proc_at i S = Some x -> pcode x = KExtraPro n p \/ pcode x = KExtraCont n p -> pcode r' = KEnd -> In q (heap S3) -> ~ In q (heap S) -> qev q = pown r' ->
     room (lim d) S3 q 1 /\ (pcode x = KExtraPro n p -> forall e g, event_at (pown r') S3 = Some e -> evalue e = Some (Good (XCont g)) -> exists k, k <= 4 /\ lasts (now S3) k false g /\ room (lim d) S3 q (1 + k))) ->
  Quiet S3.
Proof.
  intros HI Q HI3 Q3 N0 Nc Ne Nx G P K A Ei Es' Old Hh Hc Hl (D1 & D2 & D3 & D4) Hid Hs He. exists d.
  assert (NR : forall q i, In q (heap S3) -> ~ In q (heap S) -> ~ role_at (qev q) (RInt i) S3) by (intros q i Hq Hq0; apply (Hh q Hq Hq0)).
  split; [|split].
  - apply (Gen_aside (lim d) p None r r' S S3 HI HI3 Q Q3 G A); auto.
    + intros i x Hi Hi0. rewrite (Old i Hi0) in Hi. discriminate.
    + intros m em q Hm Hq Eq Hq0. elim (proj2 (Hh q Hq Hq0) m). congruence.
  - apply (Post_aside p r r' S S3 A Q O d P N0 Nc Ne).
    + intros [Y|Y]; congruence.
    + intros [Y|[Y|[Y Y2]]]; try congruence. exact (Hid Y Y2).
    + intros _. rewrite Es'. auto.
  - assert (Nh : NoHits S -> NoHits S3) by (intros H; exact (aside_NoHits p r r' S S3 A Q H NR)).
    assert (Fi : Fires (Some p) S -> Fires None S3).
    { intros F. apply (Fires_aside p r r' S S3 A Q None F (or_introl eq_refl) NR).
      - intros q m em Hq Hq0 Hm Eq. elim (proj2 (Hh q Hq Hq0) m). congruence.
      - intros n E. apply (Hc n). rewrite E. reflexivity.
      - apply (Crew_same p r r' S S3 A); [exact (f_crew _ _ F)|exact Es'].
      - intros n _ Hb. elim (Hc n). destruct (pcode r'); try contradiction; exact Hb.
      - intros n _ E. elim (Hc n). rewrite E. reflexivity. }
    destruct d as [| |j q| |q| | | |]; cbn [Kind] in K |- *; rewrite ?Es'; try (destruct K as [K1 K2]; split; [exact (Nh K1)|exact K2]); try exact (Fi K).
    destruct (Nat.eqb_spec j 4) as [->|]; [|destruct K as [K1 K2]; split; [exact (Nh K1)|exact K2]].
    apply (Bags_aside p r r' S S3 A None q K); [discriminate|]. intros m Hm. elim (Nx m Hm).
Qed.
(** From [S] to the generator. *)
Record LPre (p : nat) (w : nat) (S S1 : sim) : Prop := MkLPre {
  l_mv : Mv p S S1;
  l_prs : prs S1 = prs S;
  l_inter : inter S1 = inter S;
  l_ss : ss S1 = ss S;
  l_acts : acts S1 = acts S;
  l_pact : pact S1 = pact S;
  l_todo : todo S1 = [WEnd w];
  l_evs : forall ev e, ev <> pact S -> event_at ev S = Some e -> event_at ev S1 = Some e;
  l_evs' : forall ev e, event_at ev S1 = Some e -> event_at ev S = Some e \/ forall g, evalue e <> Some (Good (XCont g));
  l_heap : forall q, In q (heap S1) -> ~ In q (heap S) -> qev q = pact S;
  l_que : Que (Some p) S1 }.
Lemma LPre_same p w S S1 : Que (Some p) S -> now S1 = now S -> eid S1 = eid S -> evs S1 = evs S -> heap S1 = heap S -> prs S1 = prs S -> extras S1 = extras S -> acts S1 = acts S -> pact S1 = pact S -> inter S1 = inter S -> ss S1 = ss S -> todo S1 = [WEnd w] -> LPre p w S S1.
Proof.
  intros Q A1 A2 A3 A4 A5 A6 A7 A8 A9 A10 A11. assert (Ev : forall ev, event_at ev S1 = event_at ev S) by (intros ev; unfold event_at; rewrite A3; reflexivity). constructor; auto.
  - apply Mv_same; auto.
  - intros ev e _ He. rewrite Ev. exact He.
  - intros ev e He. left. rewrite <- Ev. exact He.
  - intros q Hq Hq0. rewrite A4 in Hq. contradiction.
  - apply (Que_same (Some p) S); auto.
Qed.
Lemma LPre_fired p w S S1 x : Que (Some p) S -> LPre p w S S1 -> event_at (pact S1) S1 = Some x -> evalue x = None -> LPre p w S (fired (pact S1) x S1).
Proof.
  intros Q E Hx Vx. pose proof (l_que _ _ _ _ E) as Q1. destruct (q_pact _ _ Q1) as (y & Hy & R). assert (y = x) by congruence. subst y.
  assert (Ev : forall ev, event_at ev (fired (pact S1) x S1) = if Nat.eqb ev (pact S1) then Some (valued (Good XUnit) x) else event_at ev S1) by (intros ev; exact (at_changed ev _ _ x S1 Hx)).
  constructor; try (first [exact (l_prs _ _ _ _ E)|exact (l_inter _ _ _ _ E)|exact (l_ss _ _ _ _ E)|exact (l_acts _ _ _ _ E)|exact (l_pact _ _ _ _ E)|exact (l_todo _ _ _ _ E)]).
  - eapply Mv_trans; [exact (l_mv _ _ _ _ E)|]. apply Mv_fired; auto.
  - intros ev e N He. rewrite Ev, (l_pact _ _ _ _ E). destruct (Nat.eqb_spec ev (pact S)); [contradiction|]. exact (l_evs _ _ _ _ E ev e N He).
  - intros ev e He. rewrite Ev in He. destruct (Nat.eqb_spec ev (pact S1)) as [->|]; [right; injection He as <-; discriminate|exact (l_evs' _ _ _ _ E ev e He)].
  - intros q Hq Hq0. cbn in Hq. apply in_app_or in Hq. destruct Hq as [Hq|[<-|[]]]; [exact (l_heap _ _ _ _ E q Hq Hq0)|]. cbn. exact (l_pact _ _ _ _ E).
  - apply Que_fired; auto. rewrite R. reflexivity.
Qed.
Section Local.
Variables (d : stage) (p : nat) (o : outcome) (w : nat) (r : prc) (n : string) (g : gen) (S S1 : sim).
Hypothesis T : Turn p o w r S.
Hypothesis Hc : pcode r = KLocal0 false n g \/ exists e, pcode r = KLocal false n e g /\ (o = Bad TInterrupt \/ etime e = now S).
Hypothesis G : Gen (lim d) (Some p) S.
Hypothesis P : Post O d S.
Hypothesis K : Kind (Some p) None d S.
Hypothesis E : LPre p w S S1.
Hypothesis D : d <> SStart /\ d <> SNew /\ d <> SNone /\ d <> SDone.

Let HI : Inv S. Proof. apply (turn_parts p o w r S T). Qed.
Let Q : Que (Some p) S. Proof. apply (turn_parts p o w r S T). Qed.
Let Se : Sem (fun n => Some p <> Some 0 /\ called S n) (Some p) S. Proof. apply (turn_parts p o w r S T). Qed.
Let Hp : proc_at p S = Some r := t_proc _ _ _ _ _ T.
Lemma loc_code : ~ chief (pcode r) /\ pcode r <> KEnd /\ p <> 0 /\ (forall m, dget (extras S) m <> Some p) /\ free tame g.
Proof.
  assert (X : ~ mcode (pcode r) /\ forall m, ~ xcode m (pcode r)) by (destruct Hc as [X|(e & X & _)]; rewrite X; split; auto).
  split; [destruct Hc as [Y|(e & Y & _)]; rewrite Y; auto|]. split; [exact (t_live _ _ _ _ _ T)|]. split; [|split].
  - intros ->. destruct (s_main _ _ _ Se) as (y & A & B). assert (y = r) by congruence. subst y. apply (proj1 X B).
  - intros m Hm. destruct (s_ext _ _ _ Se m p Hm) as (y & _ & A & B & _). assert (y = r) by congruence. subst y. exact (proj2 X m B).
  - pose proof (s_loc _ _ _ Se p r Hp) as Y. destruct Hc as [Z|(e & Z & _)]; rewrite Z in Y; exact Y.
Qed.
Lemma loc_aside s' r' S3 : tame (ss S) s' -> Mv p S1 S3 -> (forall i, proc_at i S3 = if Nat.eqb i p then Some r' else proc_at i S) -> pown r' = pown r -> pact S3 = pact S1 -> inter S3 = inter S1 -> acts S3 = acts S1 -> ss S3 = s' ->
  (forall ev e, event_at ev S1 = Some e -> erole e = RAct -> event_at ev S3 = Some e) -> Aside p r r' S S3.
Proof.
  intros ((_ & _ & R3 & _) & R7 & R8) M Hp3 Eo Ep Ei Ea Es' Ev. constructor; auto.
  - exact (Mv_trans _ _ _ _ (l_mv _ _ _ _ E) M).
  - rewrite Hp3, Nat.eqb_refl. reflexivity.
  - rewrite Ep. exact (l_pact _ _ _ _ E).
  - intros m. right. rewrite Ei, (l_inter _ _ _ _ E). reflexivity.
  - intros m. right. rewrite Ei, (l_inter _ _ _ _ E). reflexivity.
  - intros m. right. rewrite Ea, (l_acts _ _ _ _ E). reflexivity.
  - intros m ev Hm. left. rewrite <- (l_acts _ _ _ _ E), <- Ea. exact Hm.
  - intros m. right. unfold atrig. rewrite Ea, (l_acts _ _ _ _ E). destruct (dget (acts S) m) as [ev|] eqn:Em; [|reflexivity]. destruct (q_acts _ _ Q m ev Em) as (y & Hy & Ry).
    assert (N : ev <> pact S) by (intros Y; apply (q_apart _ _ Q m); congruence). unfold trig. rewrite (Ev ev y), Hy; auto. exact (l_evs _ _ _ _ E ev y N Hy).
  - intros i y Hi Hi0. rewrite Hp3 in Hi. destruct (Nat.eqb_spec i p) as [Y|]; [rewrite Y, Hp in Hi0; discriminate|congruence].
  - intros m. unfold cnt. rewrite Es', R7. lia.
  - intros y. rewrite Es', R7. auto.
  - rewrite Es'. exact R8.
  - rewrite Es'. exact R3.
Qed.
Lemma loc_soon : (forall i x m, i <> p -> proc_at i S = Some x -> pcode x = KExtraPro m p -> dget (inter S) m = None -> o <> Bad TInterrupt -> instant (now S) g).
Proof.
  intros i x m Ni Hi Hx Hm Ho. pose proof (g_load _ _ _ G i x Hi) as L. assert (Y : Some p <> Some i) by congruence. specialize (L Y). unfold Load in L. rewrite Hx in L. destruct L as [L _]. destruct (L Hm) as (y & Hy & Z). assert (y = r) by congruence. subst y.
  destruct Hc as [X|(e & X & _)]; rewrite X in Z; [exact Z|apply Z].
Qed.
(** It ends. *)
Lemma loc_end v s' : tame (ss S) s' -> go_on O p (pcode r) o (set_todo [WEnd w] S) = (set_ss s' S1, inl (NDone v)) ->
  (exists k, 1 <= k /\ k <= 5 /\ ready (lim d) k /\ forall h, v = XCont h -> exists m, k = Datatypes.S m /\ lasts (now S) m false h) ->
  (forall h, v = XCont h -> o <> Bad TInterrupt /\ ~ instant (now S) g) -> (d = SWait -> trig S1 (pact S1) = true) -> Fin S.
Proof.
  intros Ht Hg (k & K1 & K2 & K3 & K4) Hv Hw. destruct loc_code as (Nc & Ne & N0 & Nx & _). set (S2 := set_ss s' S1) in *.
  apply (land_done p o w r S T S2 v Hg); [exact (l_todo _ _ _ _ E)|]. intros eo He Ro Ve HI3 Q3. set (S3 := finished p r (Good v) eo S2) in *. set (r3 := MkPrc (pkind r) (pown r) (ptarget r) KEnd).
  assert (Hr2 : proc_at p S2 = Some r) by (unfold proc_at, S2; cbn; rewrite (l_prs _ _ _ _ E); exact Hp).
  assert (Hp3 : forall i, proc_at i S3 = if Nat.eqb i p then Some r3 else proc_at i S) by (intros i; unfold S3; rewrite (pat_finished p r (Good v) eo S2 Hr2); unfold proc_at, S2; cbn; rewrite (l_prs _ _ _ _ E); reflexivity).
  assert (Ev : forall ev, event_at ev S3 = if Nat.eqb ev (pown r) then Some (valued (Good v) eo) else event_at ev S1) by (intros ev; exact (at_finished p r (Good v) eo S2 He ev)).
  assert (Hne : forall t', erole eo <> RTime t') by (intros t'; rewrite Ro; discriminate).
  assert (A : Aside p r r3 S S3).
  { apply (loc_aside s' r3 S3 Ht); auto; try reflexivity.
    - eapply Mv_trans; [apply (Mv_same p S1 S2); reflexivity|]. apply Mv_finished; auto.
    - intros ev e Hev Re. rewrite Ev. destruct (Nat.eqb_spec ev (pown r)) as [Y|]; [|exact Hev]. rewrite Y in Hev. assert (eo = e) by (change (event_at (pown r) S1 = Some eo) in He; congruence). congruence. }
  assert (Hh : forall q, In q (heap S3) -> ~ In q (heap S) -> qev q = pown r \/ qev q = pact S).
  { intros q Hq Hq0. change (In q (heap S1 ++ [MkQ (now S1 + 0) NORMAL (eid S1) (pown r)])) in Hq. apply in_app_or in Hq. destruct Hq as [Hq|[<-|[]]]; [right; exact (l_heap _ _ _ _ E q Hq Hq0)|left; reflexivity]. }
  assert (Iq : inter S3 = inter S) by exact (l_inter _ _ _ _ E). assert (Aq : acts S3 = acts S) by exact (l_acts _ _ _ _ E).
  assert (Nq : now S3 = now S) by exact (v_now _ _ _ (l_mv _ _ _ _ E)).
  apply (local_quiet d p r r3 S S3 HI Q HI3 Q3 N0 Nc Ne Nx G P K A Iq); auto.
  - exact (proj1 (proj2 Ht)).
  - intros i Hi. rewrite Hp3. destruct (Nat.eqb_spec i p) as [Y|]; [rewrite Y, Hp in Hi; discriminate|exact Hi].
  - intros q Hq Hq0. destruct (q_pact _ _ Q3) as (y & Hy & Ry). change (pact S3) with (pact S1) in Hy. rewrite (l_pact _ _ _ _ E) in Hy. split.
    + intros i (z & Hz & Rz). destruct (Hh q Hq Hq0) as [Y|Y]; rewrite Y in Hz; [rewrite Ev, Nat.eqb_refl in Hz; injection Hz as <-; cbn in Rz; congruence|congruence].
    + intros m Hm. destruct (Hh q Hq Hq0) as [Y|Y]; rewrite Y in Hm.
      * destruct (q_acts _ _ Q3 m _ Hm) as (z & Hz & Rz). rewrite Ev, Nat.eqb_refl in Hz. injection Hz as <-. cbn in Rz. congruence.
      * rewrite Aq in Hm. exact (q_apart _ _ Q m Hm).
  - exact I.
  - intros Y Y2. exfalso. specialize (Hw Y). destruct (q_pact _ _ (l_que _ _ _ _ E)) as (y & Hy & Ry). change (pact S3) with (pact S1) in Y2. unfold trig in Hw, Y2. rewrite Hy in Hw. rewrite Ev in Y2.
    destruct (Nat.eqb_spec (pact S1) (pown r)) as [Z|]; [discriminate|]. rewrite Hy in Y2. congruence.
  - intros i y m Ni Hi Hy Hm. exists r3. rewrite Hp3, Nat.eqb_refl. split; [reflexivity|]. cbn [pcode r3 pown]. exists (valued (Good v) eo). split; [rewrite Ev, Nat.eqb_refl; reflexivity|]. split; [discriminate|].
    intros h [= X]. destruct (Hv h X) as [X1 X2]. rewrite Iq in Hm. apply X2. exact (loc_soon i y m Ni Hi Hy Hm X1).
  - intros i y m q _ _ _ _ _ _ _. split; [apply (ready_room _ k); auto|]. intros _ e h He3 Vh. cbn [pown r3] in He3. rewrite Ev, Nat.eqb_refl in He3. injection He3 as <-. injection Vh as X. destruct (K4 h X) as (j & J1 & J2). exists j. rewrite Nq. split; [lia|]. split; [exact J2|]. apply (ready_room _ k); auto. lia.
Qed.
(** It waits for its next event. *)
Lemma loc_wait s' e h k : tame (ss S) s' -> (now S <= etime e)%Z -> o <> Bad TInterrupt ->
  go_on O p (pcode r) o (set_todo [WEnd w] S) = (timed (etime e - now S1) (set_ss s' S1), inl (NWait (KLocal false n e h) (List.length (evs S1)))) ->
  ready (lim d) k -> (unknown e = false -> eproc e <> PROCEDURAL) -> (exists m, lasts (etime e) m (unknown e) h /\ m <= 5 /\ (etime e = now S -> m < k)) ->
  (instant (now S) g -> (etime e <= now S)%Z /\ instant (now S) h) -> Fin S.
Proof.
  intros Ht Le No Hg Rk Un (m & M1 & M2 & M3) Hin. destruct loc_code as (Nc & Ne & N0 & Nx & _). set (dd := (etime e - now S1)%Z) in *. set (S2 := set_ss s' S1) in *. set (ob := List.length (evs S1)) in *.
  assert (N1 : now S1 = now S) by exact (v_now _ _ _ (l_mv _ _ _ _ E)).
  set (x0 := MkEvt (RTime (now S1 + dd)) (Some (Good XUnit)) false (Some [])).
  assert (He : event_at ob (timed dd S2) = Some x0) by (change (event_at ob (added x0 S2) = Some x0); rewrite at_added; unfold ob; change (List.length (evs S2)) with (List.length (evs S1)); rewrite Nat.eqb_refl; reflexivity).
  apply (land_park p o w r S T (timed dd S2) (KLocal false n e h) ob x0 Hg); [exact (l_todo _ _ _ _ E)|exact He|reflexivity|]. intros HI3 Q3. set (S3 := parked p r (KLocal false n e h) ob x0 (timed dd S2)) in *.
  set (r3 := MkPrc (pkind r) (pown r) ob (KLocal false n e h)).
  assert (Hr2 : proc_at p (timed dd S2) = Some r) by (unfold proc_at, S2; cbn; rewrite (l_prs _ _ _ _ E); exact Hp).
  assert (Hp3 : forall i, proc_at i S3 = if Nat.eqb i p then Some r3 else proc_at i S) by (intros i; unfold S3; rewrite (pat_parked p r (KLocal false n e h) ob x0 _ Hr2); unfold proc_at, S2; cbn; rewrite (l_prs _ _ _ _ E); reflexivity).
  assert (Ev : forall ev, event_at ev S3 = if Nat.eqb ev ob then Some (MkEvt (RTime (now S1 + dd)) (Some (Good XUnit)) false (Some [CResume p])) else event_at ev S1).
  { intros ev. unfold S3. rewrite (at_parked p r (KLocal false n e h) ob x0 _ He). destruct (Nat.eqb_spec ev ob); [reflexivity|]. change (event_at ev (timed dd S2)) with (event_at ev (added x0 S2)). rewrite at_added. destruct (Nat.eqb_spec ev (List.length (evs S2))); [contradiction|reflexivity]. }
  assert (A : Aside p r r3 S S3).
  { apply (loc_aside s' r3 S3 Ht); auto; try reflexivity.
    - eapply Mv_trans; [apply (Mv_same p S1 S2); reflexivity|]. eapply Mv_trans; [apply (Mv_timed p dd)|]. apply Mv_parked; auto.
    - intros ev y Hev Re. rewrite Ev. pose proof (at_old _ _ _ Hev). destruct (Nat.eqb_spec ev ob); [unfold ob in *; lia|exact Hev]. }
  assert (Hh : forall q, In q (heap S3) -> ~ In q (heap S) -> (qev q = ob /\ qtime q = etime e) \/ qev q = pact S).
  { intros q Hq Hq0. change (In q (heap S1 ++ [MkQ (now S1 + dd) NORMAL (eid S1) ob])) in Hq. apply in_app_or in Hq. destruct Hq as [Hq|[<-|[]]]; [right; exact (l_heap _ _ _ _ E q Hq Hq0)|left; split; [reflexivity|]]. cbn. unfold dd. lia. }
  assert (Iq : inter S3 = inter S) by exact (l_inter _ _ _ _ E). assert (Aq : acts S3 = acts S) by exact (l_acts _ _ _ _ E).
  assert (Nq : now S3 = now S) by exact N1.
  assert (Eob : event_at ob S = None).
  { destruct (event_at ob S) as [y|] eqn:Hy; [exfalso|reflexivity]. destruct (v_evs _ _ _ (l_mv _ _ _ _ E) _ _ Hy) as (z & Hz & _). pose proof (at_old _ _ _ Hz). unfold ob in *. lia. }
  apply (local_quiet d p r r3 S S3 HI Q HI3 Q3 N0 Nc Ne Nx G P K A Iq); auto.
  - exact (proj1 (proj2 Ht)).
  - intros i Hi. rewrite Hp3. destruct (Nat.eqb_spec i p) as [Y|]; [rewrite Y, Hp in Hi; discriminate|exact Hi].
  - intros q Hq Hq0. destruct (q_pact _ _ Q3) as (y & Hy & Ry). change (pact S3) with (pact S1) in Hy. rewrite (l_pact _ _ _ _ E) in Hy. split.
    + intros i (z & Hz & Rz). destruct (Hh q Hq Hq0) as [[Y _]|Y]; rewrite Y in Hz; [rewrite Ev, Nat.eqb_refl in Hz; injection Hz as <-; discriminate|congruence].
    + intros j Hm. destruct (Hh q Hq Hq0) as [[Y _]|Y]; rewrite Y in Hm.
      * destruct (q_acts _ _ Q3 j _ Hm) as (z & Hz & Rz). rewrite Ev, Nat.eqb_refl in Hz. injection Hz as <-. discriminate.
      * rewrite Aq in Hm. exact (q_apart _ _ Q j Hm).
  - unfold Load. cbn [pcode r3 ptarget]. split; [exact Un|]. exists m. split; [exact M2|]. split; [exact M1|]. intros q Hq Eq.
    assert (Hq0 : ~ In q (heap S)) by (intros Hq0; destruct (q_heap _ _ Q q Hq0) as (_ & _ & y & Hy & _); congruence). assert (Eqt : qtime q = etime e \/ qev q = pact S) by (destruct (Hh q Hq Hq0) as [[_ Y]|Y]; auto).
    assert (Tq : qtime q = etime e) by (destruct Eqt as [Y|Y]; [exact Y|]; exfalso; destruct (q_pact _ _ Q) as (y & Hy & _); congruence).
    destruct (Z.eq_dec (qtime q) (now S3)) as [Y|Y]; [|apply room_later; exact Y]. apply (ready_room _ k); [exact Rk|]. assert (etime e = now S) by congruence. specialize (M3 H). lia.
  - intros _ _ (I1 & I2 & I3). split; [|split].
    + right. exists p, r3, n, e, h. split; [rewrite Hp3, Nat.eqb_refl; reflexivity|reflexivity].
    + apply (aside_NoBaby p r r3 S S3 A I2); [discriminate|]. intros i Hi. rewrite Hp3. destruct (Nat.eqb_spec i p) as [Y|]; [rewrite Y, Hp in Hi; discriminate|exact Hi].
    + apply (aside_NoCont p r r3 S S3 A HI3 I3); [discriminate|]. intros ev y k' Hy Vy. rewrite Ev in Hy. destruct (Nat.eqb_spec ev ob) as [Z|]; [injection Hy as <-; discriminate|].
      destruct (l_evs' _ _ _ _ E ev y Hy) as [Z|Z]; [exists y; auto|elim (Z k' Vy)].
  - intros i y j Ni Hi Hy Hm. rewrite Iq in Hm. destruct (Hin (loc_soon i y j Ni Hi Hy Hm No)) as [X1 X2]. exists r3. rewrite Hp3, Nat.eqb_refl. split; [reflexivity|]. cbn [pcode r3]. rewrite Nq. split; [lia|exact X2].
  - intros i y j q _ _ _ [=].
Qed.
Lemma loc_next b k : o <> Bad TInterrupt -> go_on O p (pcode r) o (set_todo [WEnd w] S) = local_next false n g S1 -> k <= 5 -> ready (lim d) k -> lasts (now S) k b g -> (d = SWait -> b = false -> trig S1 (pact S1) = true) -> Fin S.
Proof.
  intros No Hg Lk Rk Hl Hw. destruct loc_code as (_ & _ & _ & _ & Fg). unfold local_next in Hg. rewrite (l_ss _ _ _ _ E) in Hg. destruct (resume g (ss S)) as [[s' ns] oo] eqn:R.
  pose proof (resume_lasts g _ _ _ _ _ _ _ Hl R) as Z. destruct (resume_moves tame tame_refl tame_trans g (ss S) s' ns oo (Fg _) R) as [Ht _].
  pose proof (resume_instant g (now S) (ss S) s' ns oo) as Zi.
  destruct oo as [|x|e h|h].
  - destruct Z as [Z1 Z2]. apply (loc_end XUnit s' Ht Hg); auto; [|discriminate]. exists k. repeat (split; [assumption|]). discriminate.
  - exact (land_fail p o w r S T _ _ Hg).
  - unfold bind in Hg. rewrite timeout_eq in Hg. change (now (set_ss s' S1)) with (now S1) in Hg. destruct (Z.ltb_spec (etime e - now S1) 0) as [Lt|Ge]; [exact (land_fail p o w r S T _ _ Hg)|].
    assert (N1 : now S1 = now S) by exact (v_now _ _ _ (l_mv _ _ _ _ E)). assert (Le : (now S <= etime e)%Z) by lia.
    destruct Z as [Z1 Z2]. destruct (Z2 Le) as (m & Y1 & Y2 & Y3). apply (loc_wait s' e h k Ht Le No Hg Rk Z1); [|intros I0; exact (Zi I0 R)]. exists m. split; [exact Y1|]. split; [lia|exact Y3].
  - destruct Z as [Z1 (m & Z2 & Z3)]. apply (loc_end (XCont h) s' Ht Hg); auto.
    exists k. split; [lia|]. split; [exact Lk|]. split; [exact Rk|]. intros h' [= <-]. exists m. auto.
Qed.
End Local.
(** A process of a module. *)
Lemma local_turn d p o w r n g b k S : Turn p o w r S -> Gen (lim d) (Some p) S -> Post O d S -> Kind (Some p) None d S -> d <> SStart /\ d <> SNew /\ d <> SNone /\ d <> SDone ->
  (pcode r = KLocal0 false n g /\ b = false /\ (d = SWait -> trig S (pact S) = true)) \/ (exists e, pcode r = KLocal false n e g /\ b = unknown e /\ (unknown e = false -> eproc e <> PROCEDURAL) /\ (o = Bad TInterrupt \/ etime e = now S)) ->
  k <= 5 -> (o <> Bad TInterrupt -> ready (lim d) k /\ lasts (now S) k b g) -> (o = Bad TInterrupt -> exists qm, d = SZero 4 qm) -> Fin S.
Proof.
  intros T G P K D Hc Lk Hk Hi. destruct (turn_parts _ _ _ _ _ T) as (HI & _ & Q & Se & Ac).
  assert (Hc' : pcode r = KLocal0 false n g \/ exists e, pcode r = KLocal false n e g /\ (o = Bad TInterrupt \/ etime e = now S)) by (destruct Hc as [(X & _)|(e & X & _ & _ & Y)]; [left; exact X|right; exists e; auto]).
  set (S0 := set_todo [WEnd w] S). assert (E0 : LPre p w S S0) by (apply LPre_same; auto).
  destruct o as [v|[x| |]]; [|exact (turn_bad _ _ _ _ _ T)|contradiction|].
  - destruct Hk as [Rk Hl]; [discriminate|]. destruct Hc as [(X & -> & Xw)|(e & X & -> & Xe & _)].
    + apply (loc_next d p (Good v) w r n g S S0 T Hc' G P K E0 D false k); auto; [discriminate|rewrite X; reflexivity].
    + set (S1 := set_log (log S0 ++ [(now S0, e)]) S0). assert (E1 : LPre p w S S1) by (apply LPre_same; auto). pose proof (l_que _ _ _ _ E1) as Q1.
      destruct (activate_eq e S1 (or_intror (ex_intro _ p Q1))) as (S2 & E2 & D2).
      assert (En : hasenv S2 = false) by (pose proof (o_env _ (t_ok _ _ _ _ _ T)) as Y; destruct D2 as [->|(x & _ & _ & ->)]; exact Y).
      assert (Hg : go_on O p (pcode r) (Good v) S0 = local_next false n g S2) by (rewrite X; cbn [go_on]; unfold note, bind at 1, upd_; fold S1; unfold bind at 1; rewrite E2; unfold bind, interact, bind, get, ret; rewrite En; reflexivity).
      assert (L2 : LPre p w S S2) by (destruct D2 as [->|(x & Hx & Vx & ->)]; [exact E1|apply LPre_fired; auto]).
      apply (loc_next d p (Good v) w r n g S S2 T Hc' G P K L2 D (unknown e) k); auto; [discriminate|].
      intros _ Hu. unfold activate, bind, get in E2. unfold unknown in *. assert (Np : String.eqb (eproc e) PROCEDURAL = false) by (destruct (String.eqb_spec (eproc e) PROCEDURAL) as [Y|]; [elim (Xe Hu Y)|reflexivity]).
      destruct D2 as [->|(x & Hx & Vx & ->)].
      * destruct (trig S1 (pact S1)) eqn:Tr; [reflexivity|exfalso]. destruct (q_pact _ _ Q1) as (y & Hy & _). assert (Vy : evalue y = None) by (unfold trig, triggered in Tr; rewrite Hy in Tr; destruct (evalue y); [discriminate|reflexivity]).
        destruct (ewhat e); try discriminate; rewrite Np, (succeed_eq _ _ _ Hy Vy) in E2; apply (f_equal fst) in E2; cbn [fst] in E2; apply (f_equal (fun S => List.length (heap S))) in E2; cbn in E2; rewrite app_length in E2; cbn in E2; lia.
      * unfold trig. change (pact (fired (pact S1) x S1)) with (pact S1). change (event_at (pact S1) (fired (pact S1) x S1)) with (event_at (pact S1) (changed (pact S1) (valued (Good XUnit) x) S1)). rewrite (at_changed _ _ _ _ _ Hx), Nat.eqb_refl. reflexivity.
  - destruct (Hi eq_refl) as (qm & ->). destruct Hc as [(X & _)|(e & X & _)]; [rewrite X in Ac; contradiction|].
    apply (loc_end (SZero 4 qm) p (Bad TInterrupt) w r n g S S0 T Hc' G P K E0 D XUnit (ss S) (tame_refl _)); auto; [rewrite X; reflexivity| |discriminate|discriminate].
    exists 1. split; [lia|]. split; [lia|]. split; [cbn; lia|discriminate].
Qed.
End Model.
