(** Simulations without environment: where the process of the rules is, and what the others do meanwhile. *)
From Coq Require Import Lia Sorted.
From Verif Require Import Base BaseFacts Chunks DecMem Buffers BufferFacts Productions ProdSpec LearnFacts Sim SimSpec SimFacts RunFacts LiftFacts SafeSpec RequestFacts QuietGens QueueFacts SafeFacts SafeSteps SafeMain FailFacts SafeRuns BrokenFacts QuietFacts.
Local Open Scope string_scope.
Local Open Scope list_scope.
Local Open Scope nat_scope.

(** ** Where the process of the rules is *)

(** It has not started; it waits to be called; it lets others go first; its rules have been started; they choose;
    none has been found; one is being fired; there was none; one has been fired. *)
Inductive stage := SStart | SWait | SZero (k : nat) (q : qent) | SNew | SConf (q : qent) | SNone | SFire | SDone | SOver.
Definition lim (d : stage) : limit :=
  match d with
  | SStart | SNew => Some (2, None)
  | SZero k q => Some (k + 2, Some q)
  | SConf q => Some (1, Some q)
  | SNone | SDone => Some (1, None)
  | SWait | SFire | SOver => None
  end.
(** The event for which the process waits is in the queue, at this moment. *)
Definition at_hand (r : prc) (S : sim) (q : qent) : Prop := In q (heap S) /\ qev q = ptarget r /\ qtime q = now S.
Definition NoHits (S : sim) : Prop := forall q p, In q (heap S) -> ~ role_at (qev q) (RInt p) S.
Definition Wake (S : sim) : Prop := exists p r n e g, proc_at p S = Some r /\ pcode r = KLocal false n e g.
Definition NoCont (S : sim) : Prop :=
  forall p r n pro e g, proc_at p S = Some r -> pcode r = KExtraPro n pro -> event_at (ptarget r) S = Some e -> evalue e <> Some (Good (XCont g)).
Definition Idle (S : sim) : Prop := (NoMatch (ss S) \/ Wake S) /\ NoBaby S /\ NoCont S.
(** The rules after the first yield. *)
Definition conflict (O : oracle) (t : Q) : gen := match procedural O t with GAct _ (GYield _ k) => k | _ => GRet end.
Definition flows (S : sim) (g : gen) : Prop :=
  exists c b, (c = true -> In PProc (sprocs (ss S))) /\ (forall s2, mannered s2 -> (c = true -> In PProc (sprocs s2)) -> modest g c b s2) /\
    forall n, cnt n S <= 1 /\ (b n -> cnt n S = 0).

Definition Post (O : oracle) (d : stage) (S : sim) : Prop :=
  exists r0, proc_at 0 S = Some r0 /\
  match d with
  | SStart => pcode r0 = KProc0 /\ NoBaby S /\ exists q, at_hand r0 S q
  | SWait => pcode r0 = KProcAct /\ (trig S (pact S) = false -> Idle S)
  | SZero k q => pcode r0 = KProcZero k /\ k <= 4 /\ at_hand r0 S q
  | _ => exists f p r, pcode r0 = KProcPro f /\ proc_at p S = Some r /\ pown r = ptarget r0 /\
      match d with
      | SNew => pcode r = KLocal0 true PROCEDURAL (procedural O (seconds_of (now S))) /\ NoBaby S /\ exists q, at_hand r S q
      | SConf q => (exists n e, pcode r = KLocal true n e (conflict O (seconds_of (now S)))) /\ at_hand r S q /\ svars (ss S) = nobind
      | SNone => (exists n e, pcode r = KLocal true n e GRet) /\ Idle S /\ exists q, at_hand r S q
      | SFire => exists n e g, pcode r = KLocal true n e g /\ (forall s, firing (etime e) g s) /\ flows S g
      | SDone => pcode r = KEnd /\ Idle S /\ exists q, at_hand r0 S q
      | _ => pcode r = KEnd
      end
  end.

(** ** The processes of procs *)

(** The process of a buffer has been sent for, by an interruption or by its event. *)
Definition strikes (S : sim) (q : qent) (p : nat) : Prop := exists e, event_at (qev q) S = Some e /\ erole e = RInt p /\ ecbs e <> None.
Definition reached (S : sim) (qm : qent) (n : string) : Prop :=
  exists p r, dget (extras S) n = Some p /\ proc_at p S = Some r /\
    ((busy n (pcode r) /\ exists q, In q (heap S) /\ strikes S q p) \/
     (pcode r = KExtraAct n /\ exists ev qa, dget (acts S) n = Some ev /\ In qa (heap S) /\ qev qa = ev /\ qid qa < qid qm)).
Record Bags (ex : option string) (qm : qent) (S : sim) : Prop := MkBags {
  b_cnt : forall n, cnt n S <= 1;
  b_all : forall x, In x (sprocs (ss S)) -> exists id n m i c bs t, x = PReq id n m i c bs t /\ (m = MClear -> (roundtime t <= now S)%Z) /\ (dget (inter S) n = None -> m = MClear) /\ (ex = Some n \/ reached S qm n) }.
Definition waits (S : sim) (x : proc) : Prop :=
  exists id n m i c bs t, x = PReq id n m i c bs t /\ dget (inter S) n <> Some id /\ (m = MClear -> (roundtime t <= now S)%Z).
Record Fires (a : option nat) (S : sim) : Prop := MkFires {
  f_hits : NoHits S;
  f_acts : forall n ev q, dget (acts S) n = Some ev -> In q (heap S) -> qev q <> ev;
  f_new : forall p r n, proc_at p S = Some r -> pcode r <> KExtra0 n;
  f_crew : exists l1 l2, sprocs (ss S) = l1 ++ PProc :: l2 /\ forall x, In x (l1 ++ l2) -> waits S x;
  f_cnt : forall n, cnt n S <= 1;
  f_busy : forall p r n, proc_at p S = Some r -> a <> Some p -> busy n (pcode r) -> dget (inter S) n <> None;
  f_idle : forall p r n, proc_at p S = Some r -> a <> Some p -> pcode r = KExtraAct n -> atrig n S = false }.
Definition Kind (a : option nat) (ex : option string) (d : stage) (S : sim) : Prop :=
  match d with
  | SZero k q => if Nat.eqb k 4 then Bags ex q S else NoHits S /\ sprocs (ss S) = []
  | SFire | SOver => Fires a S
  | SConf _ => NoHits S /\ sprocs (ss S) = [PProc]
  | _ => NoHits S /\ sprocs (ss S) = []
  end.

(** ** An entry of the queue is taken *)

Lemma waiting_ev a S i j x y : Que a S -> proc_at i S = Some x -> proc_at j S = Some y -> a <> Some i -> a <> Some j -> pcode x <> KEnd -> pcode y <> KEnd -> ptarget x = ptarget y -> i = j.
Proof.
  intros Q Hx Hy Ni Nj Kx Ky E. destruct (q_wait _ _ Q i x Hx Ni Kx) as (e & He & C & _). destruct (q_wait _ _ Q j y Hy Nj Ky) as (e' & He' & C' & _). congruence.
Qed.
Section Pop.
Variables (S : sim) (q : qent) (h : list qent) (e : evt).
Hypothesis Q : Que None S.
Hypothesis Hpop : pop_min (heap S) = Some (q, h).
Hypothesis He : event_at (qev q) S = Some e.
Let S' := popped q h e S.

Lemma pop_value ev y : event_at ev S = Some y -> exists y', event_at ev S' = Some y' /\ erole y' = erole y /\ evalue y' = evalue y.
Proof. intros Hy. unfold S'. rewrite (at_popped S q h e He). destruct (Nat.eqb_spec ev (qev q)) as [->|N]; [eexists; split; [reflexivity|]; cbn; split; congruence|exists y; auto]. Qed.
Lemma pop_back ev y' : event_at ev S' = Some y' -> exists y, event_at ev S = Some y /\ erole y' = erole y /\ evalue y' = evalue y.
Proof. unfold S'. rewrite (at_popped S q h e He). destruct (Nat.eqb_spec ev (qev q)) as [->|N]; [intros [= <-]; exists e; auto|intros Hy; exists y'; auto]. Qed.
Lemma pop_role ev ro : role_at ev ro S' -> role_at ev ro S.
Proof. intros (y' & Hy & R). destruct (pop_back _ _ Hy) as (y & Hy' & R' & _). exists y. split; congruence. Qed.
Lemma pop_trig ev : trig S' ev = trig S ev.
Proof.
  unfold trig. destruct (event_at ev S) as [y|] eqn:Hy; [destruct (pop_value _ _ Hy) as (y' & -> & _ & V); unfold triggered; rewrite V; reflexivity|].
  destruct (event_at ev S') as [y'|] eqn:Hy'; [|reflexivity]. destruct (pop_back _ _ Hy') as (y & Hy2 & _). congruence.
Qed.
Lemma pop_sub x : In x (heap S') -> In x (heap S).
Proof. intros H. apply (in_popped S q h e Hpop x). right. exact H. Qed.
Lemma pop_left x : In x (heap S) -> x <> q -> In x (heap S').
Proof. intros H N. apply (in_popped S q h e Hpop x) in H. destruct H as [H|H]; [contradiction|exact H]. Qed.
Lemma pop_now : (now S <= now S')%Z.
Proof. change (now S') with (qtime q). destruct (q_heap _ _ Q q) as (_ & X & _); [apply (in_popped S q h e Hpop); auto|exact X]. Qed.
Lemma pop_hand i r x : proc_at i S = Some r -> pcode r <> KEnd -> resumed e <> Some i -> at_hand r S x -> qtime q = now S -> at_hand r S' x.
Proof.
  intros Hr Kr Nr (A & B & C) T. split; [apply pop_left; [exact A|]|]. 2:{ split; [exact B|]. change (now S') with (qtime q). congruence. }
  intros ->. destruct (q_wait _ _ Q i r Hr) as (y & Hy & Cy & _); [discriminate|exact Kr|]. rewrite <- B in Hy. assert (y = e) by congruence. subst y. apply Nr. unfold resumed. rewrite Cy. reflexivity.
Qed.
Lemma hand_time r x : at_hand r S x -> qtime q = now S.
Proof. intros (A & _ & C). pose proof (popped_first S q h Hpop x A) as B. pose proof pop_now as D. change (now S') with (qtime q) in D. unfold before in B. lia. Qed.
Lemma Post_time O d : Post O d S -> lim d <> None -> qtime q = now S.
Proof.
  intros (r0 & P0 & H) L. destruct d as [| |k x| |x| | | |]; cbn [lim] in L; try contradiction.
  - destruct H as (_ & _ & x & H). exact (hand_time _ _ H).
  - destruct H as (_ & _ & H). exact (hand_time _ _ H).
  - destruct H as (f & p & r & _ & _ & _ & _ & _ & x & H). exact (hand_time _ _ H).
  - destruct H as (f & p & r & _ & _ & _ & _ & H & _). exact (hand_time _ _ H).
  - destruct H as (f & p & r & _ & _ & _ & _ & _ & x & H). exact (hand_time _ _ H).
  - destruct H as (f & p & r & _ & _ & _ & _ & _ & x & H). exact (hand_time _ _ H).
Qed.
Lemma pop_Idle : Idle S -> Idle S'.
Proof.
  intros (A & B & C). split; [exact A|]. split; [exact B|]. intros i r n pro y g Hr Hc Hy Hv. destruct (pop_back _ _ Hy) as (y0 & Hy0 & _ & V). apply (C i r n pro y0 g Hr Hc Hy0). congruence.
Qed.
Lemma Post_popped O d : Post O d S -> resumed e <> Some 0 -> (forall p r, proc_at p S = Some r -> chief (pcode r) -> resumed e <> Some p) -> Post O d S'.
Proof.
  intros HP N0 Nc. pose proof (Post_time O d HP) as T. destruct HP as (r0 & P0 & H). exists r0. split; [exact P0|].
  assert (Z : d <> SWait -> d <> SFire -> d <> SOver -> now S' = now S) by (intros X1 X2 X3; change (now S') with (qtime q); apply T; destruct d; cbn; congruence).
  destruct d as [| |k x| |x| | | |].
  - destruct H as (A & B & x & C). split; [exact A|]. split; [exact B|]. exists x. apply (pop_hand 0); auto; [congruence|]. apply T. discriminate.
  - destruct H as [A B]. split; [exact A|]. change (pact S') with (pact S). rewrite pop_trig. intros X. apply pop_Idle. auto.
  - destruct H as (A & B & C). split; [exact A|]. split; [exact B|]. apply (pop_hand 0); auto; [congruence|]. apply T. discriminate.
  - rewrite Z by discriminate. destruct H as (f & p & r & A & B & C & D & E & x & F). exists f, p, r. repeat (split; [assumption|]). exists x. apply (pop_hand p); auto; [congruence| |apply T; discriminate]. apply (Nc p r); auto. rewrite D. exact I.
  - rewrite Z by discriminate. destruct H as (f & p & r & A & B & C & (n & y & D) & E & F). exists f, p, r. repeat (split; [assumption|]). split; [eauto|]. split; [|exact F]. apply (pop_hand p); auto; [congruence| |apply T; discriminate]. apply (Nc p r); auto. rewrite D. exact I.
  - destruct H as (f & p & r & A & B & C & (n & y & D) & E & x & F). exists f, p, r. repeat (split; [assumption|]). split; [eauto|]. split; [apply pop_Idle; exact E|]. exists x. apply (pop_hand p); auto; [congruence| |apply T; discriminate]. apply (Nc p r); auto. rewrite D. exact I.
  - exact H.
  - destruct H as (f & p & r & A & B & C & D & E & x & F). exists f, p, r. repeat (split; [assumption|]). split; [apply pop_Idle; exact E|]. exists x. apply (pop_hand 0); auto; [congruence|apply T; discriminate].
  - exact H.
Qed.
Lemma pop_NoHits : NoHits S -> NoHits S'.
Proof. intros H x p Hx R. apply (H x p (pop_sub x Hx)). exact (pop_role _ _ R). Qed.
Lemma Kind_popped a ex d : Kind None None d S -> (forall n p r, dget (extras S) n = Some p -> proc_at p S = Some r -> (erole e = RInt p /\ ecbs e <> None /\ busy n (pcode r)) \/ (dget (acts S) n = Some (qev q) /\ pcode r = KExtraAct n) -> ex = Some n) -> (a = None \/ a = resumed e) -> Kind a ex d S'.
Proof.
  intros HK Hx Ha.
  assert (F : Fires None S -> Fires a S').
  { intros [A B C D E F G]. constructor; auto.
    - exact (pop_NoHits A).
    - intros n ev x Hn Hi. apply (B n ev x Hn). exact (pop_sub x Hi).
    - destruct D as (l1 & l2 & D1 & D2). exists l1, l2. split; [exact D1|]. intros x Hi. destruct (D2 x Hi) as (id & n & m & i & c & bs & t & X1 & X2 & X3). exists id, n, m, i, c, bs, t. split; [exact X1|]. split; [exact X2|]. intros X. specialize (X3 X). pose proof pop_now. lia.
    - intros p r n Hp _. apply (F p r n Hp). discriminate.
    - intros p r n Hp Na Hc. unfold S'. rewrite (atrig_popped S q h e He). apply (G p r n Hp); [discriminate|exact Hc]. }
  destruct d as [| |k x| |x| | | |]; cbn [Kind] in *; try (destruct HK as [K1 K2]; split; [exact (pop_NoHits K1)|exact K2]); auto.
  destruct (Nat.eqb k 4); [|destruct HK as [K1 K2]; split; [exact (pop_NoHits K1)|exact K2]].
  destruct HK as [A B]. constructor; [exact A|]. intros y Hy. destruct (B y Hy) as (id & n & m & i & c & bs & t & X1 & X2 & X3 & X4). exists id, n, m, i, c, bs, t. split; [exact X1|].
  split; [intros X; specialize (X2 X); pose proof pop_now; lia|]. split; [exact X3|]. destruct X4 as [X4|(p & r & Y1 & Y2 & Y3)]; [discriminate|].
  destruct Y3 as [(Y3 & z & Z1 & Z2)|(Y3 & ev & qa & Z1 & Z2 & Z3 & Z4)].
  - destruct (Nat.eqb_spec (qev z) (qev q)) as [Eq|Nq].
    + left. apply (Hx n p r Y1 Y2). left. destruct Z2 as (y0 & Hy0 & R & C). assert (y0 = e) by congruence. subst y0. auto.
    + right. exists p, r. split; [exact Y1|]. split; [exact Y2|]. left. split; [exact Y3|]. exists z. split; [apply pop_left; congruence|]. destruct Z2 as (y0 & Hy0 & R & C). exists y0. split; [|auto]. unfold S'. rewrite (at_popped S q h e He). destruct (Nat.eqb_spec (qev z) (qev q)); [contradiction|exact Hy0].
  - destruct (Nat.eqb_spec (qev qa) (qev q)) as [Eq|Nq].
    + left. apply (Hx n p r Y1 Y2). right. split; [congruence|exact Y3].
    + right. exists p, r. split; [exact Y1|]. split; [exact Y2|]. right. split; [exact Y3|]. exists ev, qa. split; [exact Z1|]. split; [apply pop_left; congruence|auto].
Qed.
End Pop.

(** Things that do not matter. *)
Section Same.
Variables (S S' : sim).
Hypothesis En : now S' = now S.
Hypothesis Eh : heap S' = heap S.
Hypothesis Ep : prs S' = prs S.
Hypothesis Es : ss S' = ss S.
Hypothesis Ea : acts S' = acts S.
Hypothesis Ei : inter S' = inter S.
Hypothesis Ex : extras S' = extras S.
Hypothesis Ec : pact S' = pact S.
Hypothesis Ev : forall ev e', event_at ev S' = Some e' -> exists e, event_at ev S = Some e /\ erole e' = erole e /\ evalue e' = evalue e.
Hypothesis Ev' : forall ev e, event_at ev S = Some e -> exists e', event_at ev S' = Some e' /\ (ecbs e <> None -> ecbs e' <> None).
Lemma same_trig ev : trig S' ev = trig S ev.
Proof.
  unfold trig. destruct (event_at ev S) as [y|] eqn:Hy; [destruct (Ev' _ _ Hy) as (y' & Hy' & _)|].
  - rewrite Hy'. destruct (Ev _ _ Hy') as (y0 & A & _ & V). assert (y0 = y) by congruence. subst. unfold triggered. rewrite V. reflexivity.
  - destruct (event_at ev S') as [y'|] eqn:Hy'; [|reflexivity]. destruct (Ev _ _ Hy') as (y & Hy2 & _). congruence.
Qed.
Lemma same_role ev ro : role_at ev ro S' <-> role_at ev ro S.
Proof.
  split.
  - intros (y & Hy & R). destruct (Ev _ _ Hy) as (y0 & A & B & _). exists y0. split; congruence.
  - intros (y & Hy & R). destruct (Ev' _ _ Hy) as (y' & Hy' & _). destruct (Ev _ _ Hy') as (y0 & A & B & _). exists y'. split; congruence.
Qed.
Lemma same_proc i : proc_at i S' = proc_at i S. Proof. unfold proc_at. rewrite Ep. reflexivity. Qed.
Lemma same_NoBaby : NoBaby S -> NoBaby S'. Proof. intros H i r n g Hr. rewrite same_proc in Hr. exact (H i r n g Hr). Qed.
Lemma same_Idle : Idle S -> Idle S'.
Proof.
  intros (A & B & C). rewrite <- Es in A. split; [|split; [exact (same_NoBaby B)|]].
  - destruct A as [A|(p & r & n & y & g & A1 & A2)]; [left; exact A|right]. exists p, r, n, y, g. rewrite same_proc. auto.
  - intros i r n pro y g Hr Hc Hy Hv. rewrite same_proc in Hr. destruct (Ev _ _ Hy) as (y0 & Hy0 & _ & V). apply (C i r n pro y0 g Hr Hc Hy0). congruence.
Qed.
Lemma same_hand r q : at_hand r S q -> at_hand r S' q. Proof. intros (A & B & C). split; [rewrite Eh; exact A|]. split; [exact B|congruence]. Qed.
Lemma Post_same O d : Post O d S -> Post O d S'.
Proof.
  intros (r0 & P0 & H). exists r0. rewrite same_proc. split; [exact P0|]. destruct d as [| |k x| |x| | | |].
  - destruct H as (A & B & x & C). split; [exact A|]. split; [exact (same_NoBaby B)|]. exists x. exact (same_hand _ _ C).
  - destruct H as [A B]. split; [exact A|]. rewrite Ec, same_trig. intros X. apply same_Idle. auto.
  - destruct H as (A & B & C). split; [exact A|]. split; [exact B|]. exact (same_hand _ _ C).
  - destruct H as (f & p & r & A & B & C & D & E & x & F). exists f, p, r. rewrite same_proc, En. repeat (split; [assumption|]). split; [exact (same_NoBaby E)|]. exists x. exact (same_hand _ _ F).
  - destruct H as (f & p & r & A & B & C & D & E & F). exists f, p, r. rewrite same_proc, En, Es. repeat (split; [assumption|]). split; [exact (same_hand _ _ E)|exact F].
  - destruct H as (f & p & r & A & B & C & D & E & x & F). exists f, p, r. rewrite same_proc. repeat (split; [assumption|]). split; [exact (same_Idle E)|]. exists x. exact (same_hand _ _ F).
  - destruct H as (f & p & r & A & B & C & n & y & g & D & E & F). exists f, p, r. rewrite same_proc. repeat (split; [assumption|]). exists n, y, g. split; [exact D|]. split; [exact E|]. unfold flows, cnt in *. rewrite Es. exact F.
  - destruct H as (f & p & r & A & B & C & D & E & x & F). exists f, p, r. rewrite same_proc. repeat (split; [assumption|]). split; [exact (same_Idle E)|]. exists x. exact (same_hand _ _ F).
  - destruct H as (f & p & r & A & B & C & D). exists f, p, r. rewrite same_proc. auto.
Qed.
Lemma Kind_same a ex d : Kind a ex d S -> Kind a ex d S'.
Proof.
  assert (N : NoHits S -> NoHits S') by (intros H x p Hx R; rewrite Eh in Hx; apply (H x p Hx), same_role, R).
  assert (Ct : forall n, cnt n S' = cnt n S) by (intros n; unfold cnt; rewrite Es; reflexivity).
  assert (F : Fires a S -> Fires a S').
  { intros [A B C D E F G]. constructor.
    - exact (N A).
    - intros n ev x. rewrite Ea, Eh. apply B.
    - intros p r n Hp. rewrite same_proc in Hp. exact (C p r n Hp).
    - rewrite Es. destruct D as (l1 & l2 & D1 & D2). exists l1, l2. split; [exact D1|]. intros x Hi. destruct (D2 x Hi) as (id & n & m & i & c & bs & t & X1 & X2 & X3). exists id, n, m, i, c, bs, t. rewrite Ei, En. auto.
    - intros n. rewrite Ct. apply E.
    - intros p r n. rewrite same_proc, Ei. apply F.
    - intros p r n Hp Na Hc. rewrite same_proc in Hp. rewrite <- (G p r n Hp Na Hc). unfold atrig. rewrite Ea. destruct (dget (acts S) n); [apply same_trig|reflexivity]. }
  intros HK. destruct d as [| |k x| |x| | | |]; cbn [Kind] in *; rewrite ?Es; try (destruct HK as [K1 K2]; split; [exact (N K1)|exact K2]); auto.
  destruct (Nat.eqb k 4); [|destruct HK as [K1 K2]; split; [exact (N K1)|exact K2]].
  destruct HK as [A B]. constructor; [intros n; rewrite Ct; apply A|]. intros y Hy. rewrite Es in Hy. destruct (B y Hy) as (id & n & m & i & c & bs & t & X1 & X2 & X3 & X4). exists id, n, m, i, c, bs, t. rewrite Ei, En.
  split; [exact X1|]. split; [exact X2|]. split; [exact X3|]. destruct X4 as [X4|(p & r & Y1 & Y2 & Y3)]; [left; exact X4|right]. exists p, r. rewrite Ex, same_proc. split; [exact Y1|]. split; [exact Y2|].
  destruct Y3 as [(Y3 & z & Z1 & Z2)|(Y3 & ev & qa & Z)]; [left|right].
  - split; [exact Y3|]. exists z. rewrite Eh. split; [exact Z1|]. destruct Z2 as (y0 & Hy0 & R & C). destruct (Ev' _ _ Hy0) as (y1 & Hy1 & C1). destruct (Ev _ _ Hy1) as (y2 & Hy2 & R2 & _). exists y1. split; [exact Hy1|]. split; [congruence|auto].
  - split; [exact Y3|]. exists ev, qa. rewrite Ea, Eh. exact Z.
Qed.
End Same.

(** ** A process of a buffer moves *)

Definition Crew (S : sim) : Prop := exists l1 l2, sprocs (ss S) = l1 ++ PProc :: l2 /\ forall x, In x (l1 ++ l2) -> waits S x.
Record Aside (p : nat) (r r' : prc) (S S' : sim) : Prop := MkAside {
  a_mv : Mv p S S';
  a_p : proc_at p S = Some r;
  a_p' : proc_at p S' = Some r';
  a_own : pown r' = pown r;
  a_pact : pact S' = pact S;
  a_inter : forall n, dget (extras S) n = Some p \/ dget (inter S') n = dget (inter S) n;
  a_less : forall n, dget (inter S') n = None \/ dget (inter S') n = dget (inter S) n;
  a_acts : forall n, dget (extras S) n = Some p \/ dget (acts S') n = dget (acts S) n;
  a_born : forall n ev, dget (acts S') n = Some ev -> dget (acts S) n = Some ev \/ (dget (extras S) n <> None /\ forall q, In q (heap S) -> qev q <> ev);
  a_atrig : forall n, dget (extras S) n = Some p \/ atrig n S' = atrig n S;
  a_new : forall i x, proc_at i S' = Some x -> proc_at i S = None -> exists m g, pcode x = KLocal0 false m g;
  a_cnt : forall n, cnt n S' <= cnt n S;
  a_sub : forall x, In x (sprocs (ss S')) -> In x (sprocs (ss S));
  a_next : snext (ss S') = snext (ss S);
  a_vars : svars (ss S') = svars (ss S) }.
Section AsideFacts.
Variables (p : nat) (r r' : prc) (S S' : sim).
Hypothesis A : Aside p r r' S S'.
Hypothesis Q : Que (Some p) S.
Let M := a_mv _ _ _ _ _ A.

Lemma aside_role ev e ro : event_at ev S = Some e -> role_at ev ro S' -> role_at ev ro S.
Proof. intros He (e' & He' & R). destruct (v_evs _ _ _ M _ _ He) as (e2 & X & Y & _). exists e. split; [exact He|]. congruence. Qed.
Lemma aside_role' ev ro : role_at ev ro S -> role_at ev ro S'.
Proof. intros (e & He & R). destruct (v_evs _ _ _ M _ _ He) as (e2 & X & Y & _). exists e2. split; congruence. Qed.
Lemma aside_heap q : In q (heap S') -> In q (heap S) \/ ~ In q (heap S).
Proof.
  intros H. destruct (v_heap _ _ _ M) as (new & Eh & Hn). rewrite Eh in H. apply in_app_or in H. destruct H as [H|H]; [left; exact H|right].
  intros H2. destruct (Hn q H) as (H3 & _). destruct (q_heap _ _ Q q H2) as (H4 & _). lia.
Qed.
Lemma aside_NoHits : NoHits S -> (forall q i, In q (heap S') -> ~ In q (heap S) -> ~ role_at (qev q) (RInt i) S') -> NoHits S'.
Proof.
  intros H Hn q i Hq R. destruct (aside_heap q Hq) as [X|X]; [|exact (Hn q i Hq X R)]. destruct (q_heap _ _ Q q X) as (_ & _ & e & He & _). apply (H q i X). exact (aside_role _ _ _ He R).
Qed.
Lemma aside_trig ev e : event_at ev S = Some e -> trig S' ev = false -> trig S ev = false.
Proof.
  intros He. unfold trig. rewrite He. destruct (v_evs _ _ _ M _ _ He) as (e2 & X & _ & _ & Y). rewrite X. unfold triggered. destruct Y as [->|[Y _]]; [auto|]. rewrite Y. reflexivity.
Qed.
Lemma aside_hand i x q : i <> p -> proc_at i S = Some x -> at_hand x S q -> proc_at i S' = Some x /\ at_hand x S' q.
Proof.
  intros N Hx (H1 & H2 & H3). split; [exact (v_prs _ _ _ M i x N Hx)|]. split; [exact (Mv_in _ _ _ _ M H1)|]. split; [exact H2|]. rewrite (v_now _ _ _ M). exact H3.
Qed.
Lemma aside_flows g : flows S g -> (In PProc (sprocs (ss S)) -> In PProc (sprocs (ss S'))) -> flows S' g.
Proof.
  intros (c & b & H1 & H2 & H3) Hp. exists c, b. split; [auto|]. split; [exact H2|]. intros n. destruct (H3 n) as [H4 H5]. pose proof (a_cnt _ _ _ _ _ A n). split; [lia|]. intros X. specialize (H5 X). lia.
Qed.
Lemma aside_Wake : Wake S -> (forall n e g, pcode r = KLocal false n e g -> Wake S') -> Wake S'.
Proof.
  intros (i & x & n & e & g & H1 & H2) H3. destruct (Nat.eq_dec i p) as [->|N]; [apply (H3 n e g); pose proof (a_p _ _ _ _ _ A); congruence|].
  exists i, x, n, e, g. split; [exact (v_prs _ _ _ M i x N H1)|exact H2].
Qed.
Lemma aside_NoBaby : NoBaby S -> (forall n g, pcode r' <> KLocal0 false n g) -> (forall i, proc_at i S = None -> proc_at i S' = None) -> NoBaby S'.
Proof.
  intros H Hr Hn i x n g Hx Hc. destruct (Nat.eq_dec i p) as [->|N]; [apply (Hr n g); pose proof (a_p' _ _ _ _ _ A); congruence|].
  destruct (proc_at i S) as [y|] eqn:Hy; [|rewrite (Hn i Hy) in Hx; discriminate]. pose proof (v_prs _ _ _ M i y N Hy) as X. assert (y = x) by congruence. subst y. exact (H i x n g Hy Hc).
Qed.
Lemma aside_NoCont : Inv S' -> NoCont S -> (forall n pro, pcode r' <> KExtraPro n pro) ->
  (forall ev e' g, event_at ev S' = Some e' -> evalue e' = Some (Good (XCont g)) -> exists e, event_at ev S = Some e /\ evalue e = evalue e') -> NoCont S'.
Proof.
  intros HI H Hr Hv i x n pro e g Hx Hc He V. destruct (Nat.eq_dec i p) as [->|N]; [apply (Hr n pro); pose proof (a_p' _ _ _ _ _ A); congruence|].
  destruct (proc_at i S) as [y|] eqn:Hy.
  - pose proof (v_prs _ _ _ M i y N Hy) as X. assert (y = x) by congruence. subst y. destruct (Hv _ _ _ He V) as (e0 & He0 & V0). apply (H i x n pro e0 g Hy Hc He0). congruence.
  - destruct (a_new _ _ _ _ _ A i x Hx Hy) as (m & g' & E). congruence.
Qed.
Lemma Post_aside O d : Post O d S -> p <> 0 -> ~ chief (pcode r) -> pcode r <> KEnd ->
  (d = SStart \/ d = SNew -> NoBaby S') -> (d = SNone \/ d = SDone \/ (d = SWait /\ trig S' (pact S') = false) -> Idle S -> Idle S') ->
  (d = SFire -> In PProc (sprocs (ss S)) -> In PProc (sprocs (ss S'))) -> Post O d S'.
Proof.
  intros (r0 & P0 & H) N0 Nc Ne Hb Hi Hf. assert (Hr := a_p _ _ _ _ _ A). exists r0. split; [apply (v_prs _ _ _ M); [congruence|exact P0]|].
  assert (Nm : forall i x, proc_at i S = Some x -> chief (pcode x) \/ pcode x = KEnd -> i <> p) by (intros i x Hx X ->; assert (x = r) by congruence; subst x; tauto).
  destruct d as [| |k x| |x| | | |].
  - destruct H as (H1 & H2 & q & H3). split; [exact H1|]. split; [apply Hb; auto|]. exists q. apply (aside_hand 0); auto.
  - destruct H as [H1 H2]. split; [exact H1|]. intros T. apply Hi; [auto|]. apply H2. destruct (q_pact _ _ Q) as (e & He & _). rewrite (a_pact _ _ _ _ _ A) in T. exact (aside_trig _ e He T).
  - destruct H as (H1 & H2 & H3). split; [exact H1|]. split; [exact H2|]. apply (aside_hand 0); auto.
  - destruct H as (f & i & x & H1 & H2 & H3 & H4 & H5 & q & H6). assert (N : i <> p) by (apply (Nm i x H2); left; rewrite H4; exact I). destruct (aside_hand i x q N H2 H6) as [X1 X2].
    exists f, i, x. rewrite (v_now _ _ _ M). repeat (split; [assumption|]). split; [apply Hb; auto|]. exists q. exact X2.
  - destruct H as (f & i & y & H1 & H2 & H3 & (n & e & H4) & H5 & H6). assert (N : i <> p) by (apply (Nm i y H2); left; rewrite H4; exact I). destruct (aside_hand i y x N H2 H5) as [X1 X2].
    exists f, i, y. rewrite (v_now _ _ _ M), (a_vars _ _ _ _ _ A). repeat (split; [assumption|]). split; [exists n, e; exact H4|]. auto.
  - destruct H as (f & i & y & H1 & H2 & H3 & (n & e & H4) & H5 & q & H6). assert (N : i <> p) by (apply (Nm i y H2); left; rewrite H4; exact I). destruct (aside_hand i y q N H2 H6) as [X1 X2].
    exists f, i, y. repeat (split; [assumption|]). split; [exists n, e; exact H4|]. split; [apply Hi; auto|]. exists q. exact X2.
  - destruct H as (f & i & y & H1 & H2 & H3 & n & e & g & H4 & H5 & H6). assert (N : i <> p) by (apply (Nm i y H2); left; rewrite H4; exact I).
    exists f, i, y. split; [exact H1|]. split; [exact (v_prs _ _ _ M i y N H2)|]. split; [exact H3|]. exists n, e, g. split; [exact H4|]. split; [exact H5|]. apply aside_flows; auto.
  - destruct H as (f & i & y & H1 & H2 & H3 & H4 & H5 & q & H6). assert (N : i <> p) by (apply (Nm i y H2); right; exact H4). destruct (aside_hand 0 r0 q (not_eq_sym N0) P0 H6) as [X1 X2].
    exists f, i, y. split; [exact H1|]. split; [exact (v_prs _ _ _ M i y N H2)|]. split; [exact H3|]. split; [exact H4|]. split; [apply Hi; auto|]. exists q. exact X2.
  - destruct H as (f & i & y & H1 & H2 & H3 & H4). assert (N : i <> p) by (apply (Nm i y H2); right; exact H4). exists f, i, y. split; [exact H1|]. split; [exact (v_prs _ _ _ M i y N H2)|]. auto.
Qed.
Lemma Crew_same : Crew S -> sprocs (ss S') = sprocs (ss S) -> Crew S'.
Proof.
  intros (l1 & l2 & H1 & H2) E. exists l1, l2. rewrite E. split; [exact H1|]. intros x Hx. destruct (H2 x Hx) as (id & n & m & i & c & bs & t & X1 & X2 & X3). exists id, n, m, i, c, bs, t.
  split; [exact X1|]. split; [|rewrite (v_now _ _ _ M); exact X3]. destruct (a_less _ _ _ _ _ A n) as [->| ->]; [discriminate|exact X2].
Qed.
Lemma Fires_aside b : Fires (Some p) S -> (b = None \/ b = Some p) ->
  (forall q i, In q (heap S') -> ~ In q (heap S) -> ~ role_at (qev q) (RInt i) S') ->
  (forall q n ev, In q (heap S') -> ~ In q (heap S) -> dget (acts S') n = Some ev -> qev q <> ev) ->
  (forall n, pcode r' <> KExtra0 n) -> Crew S' ->
  (forall n, b = None -> busy n (pcode r') -> dget (inter S') n <> None) ->
  (forall n, b = None -> pcode r' = KExtraAct n -> atrig n S' = false) -> Fires b S'.
Proof.
  intros [F1 F2 F3 F4 F5 F6 F7] Hb Hh Ha Hx Hc Hbu Hid. assert (Hp' := a_p' _ _ _ _ _ A).
  assert (Sp : forall i x, proc_at i S' = Some x -> i <> p -> proc_at i S = Some x \/ exists m g, pcode x = KLocal0 false m g).
  { intros i x Hi N. destruct (proc_at i S) as [y|] eqn:Hy; [left; rewrite (v_prs _ _ _ M i y N Hy) in Hi; exact Hi|right; exact (a_new _ _ _ _ _ A i x Hi Hy)]. }
  assert (Ow : forall i x n, proc_at i S = Some x -> xcode n (pcode x) -> i <> p -> dget (extras S) n <> Some p) by (intros i x n Hi Hk N E; rewrite (xcode_who _ _ _ _ _ Q Hi Hk) in E; congruence).
  constructor.
  - exact (aside_NoHits F1 Hh).
  - intros n ev q Hn Hq. destruct (aside_heap q Hq) as [X|X]; [|exact (Ha q n ev Hq X Hn)]. destruct (a_born _ _ _ _ _ A n ev Hn) as [Y|[_ Y]]; [exact (F2 n ev q Y X)|exact (Y q X)].
  - intros i x n Hi Hk. destruct (Nat.eq_dec i p) as [->|N]; [apply (Hx n); congruence|]. destruct (Sp i x Hi N) as [Y|(m & g & Y)]; [exact (F3 i x n Y Hk)|congruence].
  - exact Hc.
  - intros n. pose proof (a_cnt _ _ _ _ _ A n). specialize (F5 n). lia.
  - intros i x n Hi Nb Hk. destruct (Nat.eq_dec i p) as [->|N]; [assert (x = r') by congruence; subst x; apply Hbu; [destruct Hb as [Hb|Hb]; congruence|exact Hk]|]. destruct (Sp i x Hi N) as [Y|(m & g & Y)]; [|rewrite Y in Hk; contradiction].
    assert (Xc : xcode n (pcode x)) by (destruct (pcode x); try contradiction; exact Hk). destruct (a_inter _ _ _ _ _ A n) as [E| ->]; [elim (Ow i x n Y Xc N E)|]. apply (F6 i x n Y); [congruence|exact Hk].
  - intros i x n Hi Nb Hk. destruct (Nat.eq_dec i p) as [->|N]; [assert (x = r') by congruence; subst x; apply Hid; [destruct Hb as [Hb|Hb]; congruence|exact Hk]|]. destruct (Sp i x Hi N) as [Y|(m & g & Y)]; [|congruence].
    assert (Xc : xcode n (pcode x)) by (rewrite Hk; reflexivity). destruct (a_atrig _ _ _ _ _ A n) as [E| ->]; [elim (Ow i x n Y Xc N E)|]. apply (F7 i x n Y); [congruence|exact Hk].
Qed.
Lemma cnt_in id n m i c bs t : In (PReq id n m i c bs t) (sprocs (ss S')) -> cnt n S' <> 0.
Proof.
  intros H E. unfold cnt in E. apply (proj2 (count_occ_not_In string_dec (names_of (sprocs (ss S'))) n)) in E. apply E. unfold names_of. apply in_flat_map. eexists. split; [exact H|]. left. reflexivity.
Qed.
Lemma Bags_aside ex qm : Bags ex qm S -> (forall n, ex = Some n -> dget (extras S) n = Some p) -> (forall n, dget (extras S) n = Some p -> cnt n S' = 0) -> Bags None qm S'.
Proof.
  intros [B1 B2] Hx Hc. constructor; [intros n; pose proof (a_cnt _ _ _ _ _ A n); specialize (B1 n); lia|]. intros x Hx'. destruct (B2 x (a_sub _ _ _ _ _ A x Hx')) as (id & n & m & i & c & bs & t & X1 & X2 & X3 & X4).
  assert (Nn : dget (extras S) n <> Some p) by (intros E; subst x; exact (cnt_in _ _ _ _ _ _ _ Hx' (Hc n E))).
  exists id, n, m, i, c, bs, t. split; [exact X1|]. split; [rewrite (v_now _ _ _ M); exact X2|]. destruct (a_inter _ _ _ _ _ A n) as [E|E]; [contradiction|]. rewrite E. split; [exact X3|]. right.
  destruct X4 as [X4|(j & y & Y1 & Y2 & Y3)]; [elim Nn; auto|]. assert (Nj : j <> p) by congruence. exists j, y. rewrite (v_ext _ _ _ M). split; [exact Y1|]. split; [exact (v_prs _ _ _ M j y Nj Y2)|].
  destruct Y3 as [(Y3 & z & Z1 & Z2)|(Y3 & ev & qa & Z1 & Z2 & Z3)]; [left|right].
  - split; [exact Y3|]. exists z. split; [exact (Mv_in _ _ _ _ M Z1)|]. destruct Z2 as (y0 & Hy0 & R & C). destruct (v_evs _ _ _ M _ _ Hy0) as (y1 & Hy1 & R1 & C1 & _). exists y1. split; [exact Hy1|]. split; [congruence|]. rewrite <- C1. exact C.
  - split; [exact Y3|]. exists ev, qa. destruct (a_acts _ _ _ _ _ A n) as [E2|E2]; [contradiction|]. rewrite E2. split; [exact Z1|]. split; [exact (Mv_in _ _ _ _ M Z2)|exact Z3].
Qed.
End AsideFacts.

(** Taking one process out of procs. *)
Lemma take_split n l : forall q l', take_proc n l = Some (q, l') -> exists l1 l2, l = l1 ++ q :: l2 /\ l' = l1 ++ l2 /\ match q with PProc => "P" | PReq _ m _ _ _ _ _ | PAuto _ m _ _ _ _ => m end = n.
Proof.
  induction l as [|x l IH]; [discriminate|]. intros q l'. cbn [take_proc]. cbv zeta.
  destruct (String.eqb_spec (match x with PProc => "P" | PReq _ n _ _ _ _ _ => n | PAuto _ n _ _ _ _ => n end) n) as [E|N].
  - intros [= <- <-]. exists [], l. auto.
  - destruct (take_proc n l) as [[q0 l0]|]; [|discriminate]. intros [= <- <-]. destruct (IH _ _ eq_refl) as (l1 & l2 & A & B & C). exists (x :: l1), l2. subst. auto.
Qed.
Lemma take_crew (P : proc -> Prop) n l q l' : take_proc n l = Some (q, l') -> q <> PProc -> (exists l1 l2, l = l1 ++ PProc :: l2 /\ forall x, In x (l1 ++ l2) -> P x) ->
  P q /\ exists l1 l2, l' = l1 ++ PProc :: l2 /\ forall x, In x (l1 ++ l2) -> P x.
Proof.
  intros E Nq (l1 & l2 & H1 & H2). destruct (take_split _ _ _ _ E) as (k1 & k2 & K1 & K2 & _). subst l'. rewrite H1 in K1. clear E H1.
  revert k1 K1. revert H2. induction l1 as [|x l1 IH]; intros H2 k1 K1.
  - destruct k1 as [|y k1]; cbn [app] in K1; [congruence|]. injection K1 as <- ->. split; [apply H2; cbn; apply in_or_app; right; left; reflexivity|]. exists [], (k1 ++ k2). split; [reflexivity|].
    intros z Hz. apply H2. cbn in *. apply in_app_or in Hz. apply in_or_app. destruct Hz; [auto|right; right; auto].
  - destruct k1 as [|y k1]; cbn [app] in K1.
    + injection K1 as -> <-. split; [apply H2; left; reflexivity|]. exists l1, l2. split; [reflexivity|]. intros z Hz. apply H2. right. exact Hz.
    + injection K1 as <- K1. destruct (IH (fun z Hz => H2 z (or_intror Hz)) k1 K1) as (A & m1 & m2 & B & C). split; [exact A|]. exists (x :: m1), m2. cbn [app]. rewrite B. split; [reflexivity|].
      intros z [->|Hz]; [apply H2; left; reflexivity|auto].
Qed.
