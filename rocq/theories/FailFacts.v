(** In a simulation without environment, a failure of process 0 or of the process of a buffer ends
    the run with the exception of this failure. *)
From Coq Require Import Lia Sorted.
From Verif Require Import Base BaseFacts Chunks DecMem Buffers BufferFacts Productions ProdSpec LearnFacts Sim SimFacts RunFacts LiftFacts SafeSpec QueueFacts.
Local Open Scope string_scope.
Local Open Scope list_scope.
Local Open Scope nat_scope.

(** An event that would end the run with an exception about scheduling. *)
Definition dangerous (e : evt) : Prop := edefused e = false /\ exists t, evalue e = Some (Bad t) /\ scheduling t.

(** ** What the code of a process does to events and the queue *)

Definition Acted (S : sim) : Prop := role_at (pact S) RAct S /\ forall n ev, dget (acts S) n = Some ev -> role_at ev RAct S.
Definition later (e e' : evt) : Prop :=
  erole e' = erole e /\ edefused e' = edefused e /\ ecbs e' = ecbs e /\ (evalue e' = evalue e \/ (evalue e = None /\ evalue e' = Some (Good XUnit))).
Lemma later_refl e : later e e. Proof. repeat split; auto. Qed.
Lemma later_trans e1 e2 e3 : later e1 e2 -> later e2 e3 -> later e1 e3.
Proof.
  intros (A1 & A2 & A3 & A4) (B1 & B2 & B3 & B4). split; [congruence|]. split; [congruence|]. split; [congruence|].
  destruct A4 as [A4|[A4 A5]], B4 as [B4|[B4 B5]]; [left; congruence|right; split; congruence|right; split; congruence|congruence].
Qed.
Lemma later_safe e e' : later e e' -> dangerous e' -> dangerous e.
Proof. intros (_ & A & _ & B) (C & t & D & E). split; [congruence|]. exists t. split; [|exact E]. destruct B as [B|[_ B]]; congruence. Qed.
Lemma later_value e e' : later e e' -> evalue e <> None -> evalue e' <> None.
Proof. intros (_ & _ & _ & [B|[_ B]]); congruence. Qed.

(** New events. *)
Definition fresh (n : nat) (S : sim) (ev : nat) (e : evt) : Prop :=
  ~ dangerous e /\ (forall p, In (CResume p) (cbs_of e) -> n <= p /\ exists r, proc_at p S = Some r /\ pcode r <> KEnd) /\ (forall c, ~ In (CCheck c) (cbs_of e)) /\
  (evalue e = None -> edefused e = false) /\ (forall p, erole e = RInit p -> exists r, proc_at p S = Some r /\ ev = Datatypes.S (pown r)).
Definition harmless (S : sim) (q : qent) : Prop := exists e, event_at (qev q) S = Some e /\ evalue e <> None /\ ~ dangerous e.

Record Gro (S S' : sim) : Prop := MkGro {
  r_now : now S' = now S;
  r_todo : todo S' = todo S;
  r_dead : dead S' = dead S;
  r_hasenv : hasenv S' = hasenv S;
  r_eid : eid S <= eid S';
  r_heap : exists new, heap S' = heap S ++ new /\ forall q, In q new -> eid S <= qid q < eid S' /\ harmless S' q;
  r_old : forall ev e, event_at ev S = Some e -> exists e', event_at ev S' = Some e' /\ later e e';
  r_new : forall ev e, event_at ev S' = Some e -> event_at ev S = None -> fresh (List.length (prs S)) S' ev e;
  r_prs : forall p r, proc_at p S = Some r -> proc_at p S' = Some r;
  r_len : List.length (prs S) <= List.length (prs S');
  r_acted : Acted S' }.

Lemma harmless_later S S' q : (forall ev e, event_at ev S = Some e -> exists e', event_at ev S' = Some e' /\ later e e') -> harmless S q -> harmless S' q.
Proof.
  intros H (e & A & B & C). destruct (H _ _ A) as (e' & A' & L). exists e'. split; [exact A'|]. split; [exact (later_value _ _ L B)|]. intros D. exact (C (later_safe _ _ L D)).
Qed.
Lemma Gro_refl S : Acted S -> Gro S S.
Proof.
  intros A. constructor; auto.
  - exists []. rewrite app_nil_r. split; [reflexivity|]. intros q [].
  - intros ev e He. exists e. split; [exact He|apply later_refl].
  - intros ev e H1 H2. congruence.
Qed.
Lemma Gro_trans S1 S2 S3 : Gro S1 S2 -> Gro S2 S3 -> Gro S1 S3.
Proof.
  intros [A1 A2 A3 A4 A5 A6 A7 A8 A9 A10 A11] [B1 B2 B3 B4 B5 B6 B7 B8 B9 B10 B11]. constructor; try congruence; try lia; auto.
  - destruct A6 as (n1 & E1 & F1), B6 as (n2 & E2 & F2). exists (n1 ++ n2). rewrite E2, E1, app_assoc. split; [reflexivity|].
    intros q Hq. apply in_app_or in Hq. destruct Hq as [Hq|Hq].
    + destruct (F1 q Hq) as [L H]. split; [lia|]. exact (harmless_later _ _ _ B7 H).
    + destruct (F2 q Hq) as [L H]. split; [lia|exact H].
  - intros ev e He. destruct (A7 ev e He) as (e1 & H1 & L1). destruct (B7 ev e1 H1) as (e2 & H2 & L2). exists e2. split; [exact H2|exact (later_trans _ _ _ L1 L2)].
  - intros ev e He Hn. destruct (event_at ev S2) as [e1|] eqn:H1.
    + destruct (A8 ev e1 H1 Hn) as (F1 & F2 & F3 & F4 & F5). destruct (B7 ev e1 H1) as (e2 & H2 & L). assert (e2 = e) by congruence. subst e2.
      assert (Cb : cbs_of e = cbs_of e1) by (unfold cbs_of; destruct L as (_ & _ & -> & _); reflexivity).
      split; [intros D; exact (F1 (later_safe _ _ L D))|]. rewrite Cb. split; [|split; [exact F3|]].
      { intros p Hp. destruct (F2 p Hp) as (N & r & Hr & Hk). split; [exact N|]. exists r. auto. }
      destruct L as (L1 & L2 & _ & L3). split.
      * intros V. rewrite L2. apply F4. destruct L3 as [L3|[L3 _]]; congruence.
      * intros p R. rewrite L1 in R. destruct (F5 p R) as (r & Hr & X). exists r. auto.
    + destruct (B8 ev e He H1) as (F1 & F2 & F3). split; [exact F1|]. split; [|exact F3]. intros p Hp. destruct (F2 p Hp) as (N & X). split; [lia|exact X].
Qed.
Lemma Acted_keeps S S' : Acted S -> (forall ev r, role_at ev r S -> role_at ev r S') -> acts S' = acts S -> pact S' = pact S -> Acted S'.
Proof. intros [A B] K E1 E2. split; [rewrite E2; auto|]. intros n ev. rewrite E1. intros H. apply K, (B n ev H). Qed.

(** [m] does no harm in [S]. *)
Definition gro {A} (m : M A) (S : sim) (Q : A -> sim -> Prop) : Prop :=
  let '(S', x) := m S in Gro S S' /\ match x with inl a => Q a S' | inr _ => True end.
Lemma gro_bind {A B} (m : M A) (k : A -> M B) S (Q1 : A -> sim -> Prop) (Q2 : B -> sim -> Prop) :
  gro m S Q1 -> (forall a S', Gro S S' -> Q1 a S' -> gro (k a) S' Q2) -> gro (bind m k) S Q2.
Proof.
  unfold gro, bind. destruct (m S) as [S1 [a|t]]; intros [H1 H2] Hk; [|auto]. specialize (Hk a S1 H1 H2). destruct (k a S1) as [S2 x]. destruct Hk as [K1 K2].
  split; [exact (Gro_trans _ _ _ H1 K1)|exact K2].
Qed.
Lemma gro_ret {A} (a : A) S (Q : A -> sim -> Prop) : Acted S -> Q a S -> gro (ret a) S Q.
Proof. intros H HQ. split; [apply Gro_refl; exact H|exact HQ]. Qed.
Lemma gro_throw {A} t S (Q : A -> sim -> Prop) : Acted S -> gro (throw t) S Q.
Proof. intros H. split; [apply Gro_refl; exact H|exact I]. Qed.
Lemma gro_get {A} (k : sim -> M A) S (Q : A -> sim -> Prop) : gro (k S) S Q -> gro (bind get k) S Q.
Proof. intros H. exact H. Qed.
Lemma Gro_same S S' : Acted S' -> now S' = now S -> todo S' = todo S -> dead S' = dead S -> hasenv S' = hasenv S -> eid S' = eid S -> heap S' = heap S -> evs S' = evs S -> prs S' = prs S -> Gro S S'.
Proof.
  intros A. destruct S, S'. cbn. intros -> -> -> -> -> -> -> ->. constructor; cbn; auto.
  - exists []. rewrite app_nil_r. split; [reflexivity|]. intros q [].
  - intros ev e He. exists e. split; [exact He|apply later_refl].
  - unfold event_at. cbn. congruence.
Qed.
Lemma gro_upd f S (Q : unit -> sim -> Prop) : Acted S -> (let S' := f S in now S' = now S /\ todo S' = todo S /\ dead S' = dead S /\ hasenv S' = hasenv S /\ eid S' = eid S /\ heap S' = heap S /\ evs S' = evs S /\ prs S' = prs S /\
  acts S' = acts S /\ pact S' = pact S) -> Q tt (f S) -> gro (upd_ f) S Q.
Proof.
  intros A (E1 & E2 & E3 & E4 & E5 & E6 & E7 & E8 & E9 & E10) HQ. split; [|exact HQ]. apply Gro_same; auto. apply (Acted_keeps S); auto. intros ev r (e & H & R). exists e. unfold event_at in *. rewrite E7. auto.
Qed.

(** ** Elementary changes *)

Lemma at_none ev S : event_at ev S = None <-> List.length (evs S) <= ev. Proof. apply nth_error_None. Qed.
Lemma Gro_added e S : Acted S -> ~ dangerous e -> (forall p, ~ In (CResume p) (cbs_of e)) -> (forall c, ~ In (CCheck c) (cbs_of e)) ->
  (evalue e = None -> edefused e = false) -> (forall p, erole e <> RInit p) -> Gro S (added e S).
Proof.
  intros A Hd Hr Hc Hv Hi. constructor; try reflexivity.
  - exists []. rewrite app_nil_r. split; [reflexivity|]. intros q [].
  - intros ev x Hx. exists x. split; [apply at_added_old; exact Hx|apply later_refl].
  - intros ev x Hx Hn. rewrite at_added in Hx. destruct (Nat.eqb ev (List.length (evs S))); [|congruence]. injection Hx as <-. split; [exact Hd|]. split; [intros p Hp; elim (Hr p Hp)|]. split; [exact Hc|]. split; [exact Hv|]. intros p R. elim (Hi p R).
  - auto.
  - apply (Acted_keeps S); auto. intros ev r. apply role_added.
Qed.
Lemma Gro_queued prio d ev S : Acted S -> (exists e, event_at ev S = Some e /\ evalue e <> None /\ ~ dangerous e) -> Gro S (queued prio d ev S).
Proof.
  intros A He. constructor; try reflexivity; auto.
  - cbn. lia.
  - eexists. split; [reflexivity|]. intros q [<-|[]]. split; [cbn; lia|exact He].
  - intros i x Hx. exists x. split; [exact Hx|apply later_refl].
  - intros i x H1 H2. change (event_at i S = Some x) in H1. congruence.
Qed.
Lemma Gro_fired ev e S : Acted S -> event_at ev S = Some e -> evalue e = None -> Gro S (fired ev e S).
Proof.
  intros A He Hv. set (e' := valued (Good XUnit) e).
  assert (L : later e e') by (repeat split; auto).
  assert (At : forall i, event_at i (changed ev e' S) = if Nat.eqb i ev then Some e' else event_at i S) by (intros i; exact (at_changed i ev e' e S He)).
  assert (G : Gro S (changed ev e' S)).
  { constructor; try reflexivity; auto.
    - exists []. rewrite app_nil_r. split; [reflexivity|]. intros q [].
    - intros i x Hx. rewrite At. destruct (Nat.eqb_spec i ev) as [->|N]; [|exists x; split; [exact Hx|apply later_refl]]. assert (x = e) by congruence. subst x. exists e'. auto.
    - intros i x Hx Hn. rewrite At in Hx. destruct (Nat.eqb_spec i ev) as [->|N]; congruence.
    - apply (Acted_keeps S); auto. intros i r (x & Hx & R). rewrite <- R. destruct (Nat.eqb_spec i ev) as [->|N].
      + assert (x = e) by congruence. subst x. exists e'. rewrite At, Nat.eqb_refl. auto.
      + exists x. rewrite At. destruct (Nat.eqb_spec i ev); [contradiction|auto]. }
  eapply Gro_trans; [exact G|]. apply Gro_queued; [exact (r_acted _ _ G)|]. exists e'. rewrite At, Nat.eqb_refl. split; [reflexivity|]. split; [discriminate|]. intros (_ & t & D & _). discriminate.
Qed.
Lemma Gro_timed d S : Acted S -> Gro S (timed d S).
Proof.
  intros A. unfold timed. set (e := MkEvt _ _ _ _). assert (D : ~ dangerous e) by (intros (_ & t & D & _); discriminate).
  assert (G : Gro S (added e S)) by (apply Gro_added; auto; discriminate). eapply Gro_trans; [exact G|]. apply Gro_queued; [exact (r_acted _ _ G)|]. exists e. rewrite at_added, Nat.eqb_refl. split; [reflexivity|]. split; [discriminate|exact D].
Qed.
Lemma Gro_struck p S : Acted S -> Gro S (struck p S).
Proof.
  intros A. unfold struck. set (e := MkEvt _ _ _ _). assert (D : ~ dangerous e) by (intros (D & _); discriminate).
  assert (G : Gro S (added e S)) by (apply Gro_added; auto; [intros q [X|[]]; discriminate|intros q [X|[]]; discriminate|discriminate|discriminate]).
  eapply Gro_trans; [exact G|]. apply Gro_queued; [exact (r_acted _ _ G)|]. exists e. rewrite at_added, Nat.eqb_refl. split; [reflexivity|]. split; [discriminate|exact D].
Qed.
Lemma Gro_spawned c S : Acted S -> c <> KEnd -> Gro S (spawned c S).
Proof.
  intros A Hk. constructor; try reflexivity.
  - cbn. lia.
  - eexists. split; [reflexivity|]. intros q [<-|[]]. split; [cbn; lia|]. exists (MkEvt (RInit (List.length (prs S))) (Some (Good XUnit)) false (Some [CResume (List.length (prs S))])).
    split; [|split; [discriminate|intros (_ & t & D & _); discriminate]]. cbn [qev]. rewrite at_spawned. rewrite Nat.eqb_refl. destruct (Nat.eqb_spec (Datatypes.S (List.length (evs S))) (List.length (evs S))); [lia|reflexivity].
  - intros ev e He. exists e. split; [exact (at_spawned_old _ _ _ _ He)|apply later_refl].
  - intros ev e He Hn. rewrite at_spawned in He. destruct (Nat.eqb ev (Datatypes.S (List.length (evs S)))) eqn:Ei; [|destruct (Nat.eqb ev (List.length (evs S))); [|congruence]]; injection He as <-.
    + split; [intros (_ & t & D & _); discriminate|]. split; [|split; [intros x [X|[]]; discriminate|split; [discriminate|]]].
      * intros p [X|[]]. injection X as <-. split; [lia|]. eexists. rewrite pat_spawned, Nat.eqb_refl. split; [reflexivity|exact Hk].
      * intros p [= <-]. eexists. rewrite pat_spawned, Nat.eqb_refl. split; [reflexivity|]. apply Nat.eqb_eq. exact Ei.
    + split; [intros (_ & t & D & _); discriminate|]. split; [intros p []|]. split; [intros x []|]. split; [reflexivity|discriminate].
  - intros p r Hp. exact (pat_spawned_old _ _ _ _ Hp).
  - cbn. rewrite app_length. lia.
  - apply (Acted_keeps S); auto. intros ev r (e & He & R). exists e. split; [exact (at_spawned_old _ _ _ _ He)|exact R].
Qed.

(** ** Parts of processes *)

Lemma gro_succeed ev S (Q : unit -> sim -> Prop) : Acted S -> role_at ev RAct S -> (forall S', Q tt S') -> gro (succeed ev) S Q.
Proof.
  intros A (e & He & R) HQ. destruct (evalue e) as [o|] eqn:V.
  - unfold gro, succeed, bind, get, trig, triggered. rewrite He, V. split; [apply Gro_refl; exact A|exact I].
  - unfold gro. rewrite (succeed_eq ev e S He V). split; [apply Gro_fired; assumption|apply HQ].
Qed.
Lemma gro_interrupt a p S (Q : unit -> sim -> Prop) : Acted S -> (forall S', Q tt S') -> gro (interrupt a p) S Q.
Proof.
  intros A HQ. unfold interrupt. apply gro_get. destruct (ended p S) eqn:E; [apply gro_throw; exact A|]. destruct (Nat.eqb_spec a p) as [->|N]; [apply gro_throw; exact A|].
  pose proof (interrupt_eq a p S E N) as X. unfold interrupt, bind at 1, get at 1 in X. rewrite E in X. destruct (Nat.eqb_spec a p); [contradiction|]. unfold gro. rewrite X. split; [apply Gro_struck; exact A|apply HQ].
Qed.
Lemma gro_timeout d S (Q : nat -> sim -> Prop) : Acted S -> (0 <= d -> Q (List.length (evs S)) (timed d S))%Z -> gro (timeout d) S Q.
Proof. intros A HQ. unfold gro. rewrite timeout_eq. destruct (Z.ltb_spec d 0); (split; [first [apply Gro_refl; exact A|apply Gro_timed; exact A]|]); [exact I|auto]. Qed.
Lemma gro_spawn c S (Q : nat -> sim -> Prop) : Acted S -> c <> KEnd -> Q (List.length (prs S)) (spawned c S) -> gro (spawn c) S Q.
Proof. intros A Hk HQ. unfold gro. rewrite spawn_eq. split; [apply Gro_spawned; assumption|exact HQ]. Qed.
Lemma gro_act_of n S (Q : nat -> sim -> Prop) : Acted S -> (forall ev, role_at ev RAct S -> Q ev S) -> gro (act_of n) S Q.
Proof. intros A HQ. unfold act_of. apply gro_get. destruct (dget (acts S) n) as [ev|] eqn:E; [|apply gro_throw; exact A]. apply gro_ret; [exact A|]. apply HQ. exact (proj2 A n ev E). Qed.
Lemma gro_interrupt_extra a n S (Q : unit -> sim -> Prop) : Acted S -> (forall S', Q tt S') -> gro (interrupt_extra a n) S Q.
Proof. intros A HQ. unfold interrupt_extra. apply gro_get. destruct (dget (extras S) n); [apply gro_interrupt; assumption|apply gro_throw; exact A]. Qed.
Lemma role_grows S S' ev r : Gro S S' -> role_at ev r S -> role_at ev r S'.
Proof. intros G (e & H & R). destruct (r_old _ _ G ev e H) as (e' & H' & L & _). exists e'. split; congruence. Qed.
Lemma gro_launch a pr S (Q : unit -> sim -> Prop) : Acted S -> (forall S', Q tt S') -> gro (launch a pr) S Q.
Proof.
  intros A HQ.
  assert (Body : forall id n can, gro (let! ev := act_of n in let! S := get in
      if trig S ev then match dget (inter S) n with Some id' => if Nat.eqb id id' then ret tt else upd_ (fun S => set_inter (dset (inter S) n id) S) ;! interrupt_extra a n | None => ret tt end
      else (if can : bool then upd_ (fun S => set_inter (dset (inter S) n id) S) else ret tt) ;! succeed ev) S Q).
  { intros id n can. eapply gro_bind with (Q1 := fun ev S' => role_at ev RAct S'); [apply gro_act_of; auto|]. intros ev S1 G1 R1. pose proof (r_acted _ _ G1) as A1. apply gro_get. destruct (trig S1 ev).
    - destruct (dget (inter S1) n) as [id'|]; [|apply gro_ret; auto]. destruct (Nat.eqb id id'); [apply gro_ret; auto|].
      eapply gro_bind with (Q1 := fun _ _ => True); [apply gro_upd; auto 15|]. intros _ S2 G2 _. apply gro_interrupt_extra; [exact (r_acted _ _ G2)|exact HQ].
    - eapply gro_bind with (Q1 := fun _ _ => True); [destruct can; [apply gro_upd; auto 15|apply gro_ret; auto]|]. intros _ S2 G2 _. apply gro_succeed; [exact (r_acted _ _ G2)|exact (role_grows _ _ _ _ G2 R1)|exact HQ]. }
  destruct pr as [|id n m i c bs t|id n b i st t]; cbn [launch]; [apply gro_throw; exact A|exact (Body id n (interruptible m))|exact (Body id n false)].
Qed.
Lemma gro_launch_all a l : forall S (Q : unit -> sim -> Prop), Acted S -> (forall S', Q tt S') -> gro (launch_all a l) S Q.
Proof.
  induction l as [|pr l IH]; intros S Q A HQ; cbn [launch_all]; [apply gro_ret; auto|]. eapply gro_bind with (Q1 := fun _ _ => True); [apply gro_launch; auto|]. intros _ S1 G1 _. apply IH; [exact (r_acted _ _ G1)|exact HQ].
Qed.

(** The events that a process goes on to wait for. *)
Definition awaits (x : nxt) (S : sim) : Prop :=
  match x with NWait c ev => firm c \/ exists e, event_at ev S = Some e /\ forall p, erole e <> ROwn p | NDone _ => True end.
Lemma role_awaits c ev r S : role_at ev r S -> (forall p, r <> ROwn p) -> awaits (NWait c ev) S.
Proof. intros (e & H & R) N. right. exists e. split; [exact H|]. rewrite R. exact N. Qed.
Lemma gro_zero k S : Acted S -> gro (zero k) S awaits.
Proof.
  intros A. unfold zero. eapply gro_bind with (Q1 := fun ev S' => exists t, role_at ev (RTime t) S').
  - apply gro_timeout; [exact A|]. intros _. exists (now S + 0)%Z. set (e := MkEvt (RTime (now S + 0)) (Some (Good XUnit)) false (Some [])). exists e.
    change (event_at (List.length (evs S)) (timed 0 S)) with (event_at (List.length (evs S)) (added e S)). rewrite at_added, Nat.eqb_refl. auto.
  - intros ev S1 G1 (t & R). apply gro_ret; [exact (r_acted _ _ G1)|]. eapply role_awaits; [exact R|discriminate].
Qed.
Lemma gro_put l S (Q : unit -> sim -> Prop) : Acted S -> (forall S', Q tt S') -> gro (upd_ (put_started l)) S Q.
Proof. intros A HQ. apply gro_upd; auto. unfold put_started. destruct (early S); auto 15. Qed.
Lemma gro_proc_loop a S : Acted S -> gro (proc_loop a) S awaits.
Proof.
  intros A. unfold proc_loop. apply gro_get. destruct (remove_procedural (get_started S)) as [l|].
  - eapply gro_bind with (Q1 := fun _ _ => True); [apply gro_put; auto|]. intros _ S1 G1 _. eapply gro_bind with (Q1 := fun _ _ => True); [apply gro_launch_all; [exact (r_acted _ _ G1)|auto]|].
    intros _ S2 G2 _. apply gro_zero. exact (r_acted _ _ G2).
  - apply gro_ret; [exact A|]. eapply role_awaits; [exact (proj1 A)|discriminate].
Qed.
Lemma gro_wait_for c p S : Acted S -> firm c -> gro (wait_for c p) S awaits.
Proof. intros A F. unfold wait_for. apply gro_get. apply gro_ret; [exact A|]. left. exact F. Qed.
Lemma gro_extra_loop O n S : Acted S -> gro (extra_loop O n) S awaits.
Proof.
  intros A. unfold extra_loop. apply gro_get. destruct (take_proc n (get_started S)) as [[pr l]|].
  - assert (Body : gro (upd_ (put_started l) ;! let! ev := act_of n in let! S := get in (if trig S ev then ret tt else succeed ev) ;! let! pro := spawn (KLocal0 false n (proc_gen O pr)) in wait_for (KExtraPro n pro) pro) S awaits).
    { eapply gro_bind with (Q1 := fun _ _ => True); [apply gro_put; auto|]. intros _ S1 G1 _. eapply gro_bind with (Q1 := fun ev S' => role_at ev RAct S'); [apply gro_act_of; [exact (r_acted _ _ G1)|auto]|].
      intros ev S2 G2 R2. pose proof (r_acted _ _ G2) as A2. apply gro_get. eapply gro_bind with (Q1 := fun _ _ => True); [destruct (trig S2 ev); [apply gro_ret; auto|apply gro_succeed; auto]|].
      intros _ S3 G3 _. eapply gro_bind with (Q1 := fun _ _ => True); [apply gro_spawn; [exact (r_acted _ _ G3)|discriminate|exact I]|]. intros pro S4 G4 _. apply gro_wait_for; [exact (r_acted _ _ G4)|exact I]. }
    destruct pr; [apply gro_throw; exact A|exact Body|exact Body].
  - eapply gro_bind with (Q1 := fun _ _ => True); [apply gro_upd; auto 15|]. intros _ S1 G1 _. eapply gro_bind with (Q1 := fun ev S' => role_at ev RAct S'); [apply gro_act_of; [exact (r_acted _ _ G1)|auto]|].
    intros ev S2 G2 R2. apply gro_ret; [exact (r_acted _ _ G2)|]. eapply role_awaits; [exact R2|discriminate].
Qed.
Lemma gro_activate e S (Q : unit -> sim -> Prop) : Acted S -> (forall S', Q tt S') -> gro (activate e) S Q.
Proof.
  intros A HQ. unfold activate. apply gro_get. assert (B : gro (if String.eqb (eproc e) PROCEDURAL then ret tt else if trig S (pact S) then ret tt else succeed (pact S)) S Q).
  { destruct (String.eqb (eproc e) PROCEDURAL); [apply gro_ret; auto|]. destruct (trig S (pact S)); [apply gro_ret; auto|]. apply gro_succeed; [exact A|exact (proj1 A)|exact HQ]. }
  destruct (ewhat e); try exact B. apply gro_ret; auto.
Qed.
Lemma gro_interact S (Q : unit -> sim -> Prop) : Acted S -> hasenv S = false -> (forall S', Q tt S') -> gro interact S Q.
Proof. intros A E HQ. unfold interact. apply gro_get. rewrite E. apply gro_ret; auto. Qed.
Lemma gro_local_next b n g S : Acted S -> gro (local_next b n g) S awaits.
Proof.
  intros A. unfold gro, local_next. destruct (resume g (ss S)) as [[s' ns] o].
  assert (G : Gro S (set_ss s' S)) by (apply Gro_same; auto).
  destruct o as [|x|e k|k]; [split; [exact G|exact I]|split; [exact G|exact I]| |split; [exact G|exact I]].
  pose proof (r_acted _ _ G) as A1. set (S1 := set_ss s' S) in *.
  assert (X : gro (let! ev := timeout (etime e - now S1) in ret (NWait (KLocal b n e k) ev)) S1 awaits).
  { eapply gro_bind with (Q1 := fun _ _ => True); [apply gro_timeout; auto|]. intros ev S2 G2 _. apply gro_ret; [exact (r_acted _ _ G2)|left; exact I]. }
  unfold gro in X. destruct ((let! ev := timeout (etime e - now S1) in ret (NWait (KLocal b n e k) ev)) S1) as [S2 x]. destruct X as [X1 X2]. split; [exact (Gro_trans _ _ _ G X1)|exact X2].
Qed.

Definition outside (c : code) : Prop := match c with KEnv0 _ | KEnvWait _ _ | KEnvP0 _ | KEnvP _ => True | _ => False end.
Lemma gro_new_act (f : nat -> sim -> sim) S : Acted S -> (forall ev S, Acted S -> role_at ev RAct S -> Acted (f ev S)) ->
  (forall ev S, let S' := f ev S in now S' = now S /\ todo S' = todo S /\ dead S' = dead S /\ hasenv S' = hasenv S /\ eid S' = eid S /\ heap S' = heap S /\ evs S' = evs S /\ prs S' = prs S) ->
  gro (let! ev := new_event RAct in upd_ (f ev)) S (fun _ _ => True).
Proof.
  intros A Hf Hs. unfold gro, bind, new_event, mk_event, upd_. set (e := MkEvt RAct None false (Some [])). fold (added e S). set (ev := List.length (evs S)).
  assert (G : Gro S (added e S)) by (apply Gro_added; auto; [intros (_ & t & D & _); discriminate|discriminate]).
  split; [|exact I]. eapply Gro_trans; [exact G|]. destruct (Hs ev (added e S)) as (E1 & E2 & E3 & E4 & E5 & E6 & E7 & E8). apply Gro_same; auto. apply Hf; [exact (r_acted _ _ G)|]. exists e. unfold ev. rewrite at_added, Nat.eqb_refl. auto.
Qed.
Lemma Acted_pact ev S : Acted S -> role_at ev RAct S -> Acted (set_pact ev S).
Proof. intros [A B] R. split; [exact R|exact B]. Qed.
Lemma Acted_acts n ev S : Acted S -> role_at ev RAct S -> Acted (set_acts (dset (acts S) n ev) S).
Proof. intros [A B] R. split; [exact A|]. intros m i. cbn [acts set_acts]. rewrite dget_dset. destruct (String.eqb _ _); [intros [= <-]; exact R|apply B]. Qed.

Lemma gro_go_on O p c o S : Acted S -> hasenv S = false -> ~ outside c -> gro (go_on O p c o) S awaits.
Proof.
  intros A E Ho. assert (Th : forall t, gro (@throw nxt t) S awaits) by (intros t; apply gro_throw; exact A).
  assert (Rules : forall f, gro (let! S := get in let! pro := spawn (KLocal0 true PROCEDURAL (procedural O (seconds_of (now S)))) in wait_for (KProcPro f) pro) S awaits).
  { intros f. apply gro_get. eapply gro_bind with (Q1 := fun _ _ => True); [apply gro_spawn; [exact A|discriminate|exact I]|]. intros pro S1 G1 _. apply gro_wait_for; [exact (r_acted _ _ G1)|exact I]. }
  destruct c as [|f| |[|k]|n|n|n pro|n pro|b n g|b n e g|g|pro g|e|e|]; try (elim Ho; exact I); clear Ho.
  - destruct o as [v|t]; [apply Rules|apply Th].
  - destruct o as [v|t]; [|apply Th]. cbn [go_on]. eapply gro_bind with (Q1 := fun _ _ => True); [apply gro_upd; auto 15|]. intros _ S1 G1 _. pose proof (r_acted _ _ G1) as A1.
    eapply gro_bind with (Q1 := fun _ _ => True); [destruct f; [apply gro_ret; auto|apply gro_new_act; [exact A1|exact Acted_pact|cbn; auto 15]]|]. intros _ S2 G2 _. apply gro_proc_loop. exact (r_acted _ _ G2).
  - destruct o as [v|t]; [apply gro_zero; exact A|apply Th].
  - destruct o as [v|t]; [apply Rules|apply Th].
  - destruct o as [v|t]; [apply gro_zero; exact A|apply Th].
  - destruct o as [v|t]; [apply gro_extra_loop; exact A|apply Th].
  - destruct o as [v|t]; [|apply Th]. cbn [go_on].
    pose proof (gro_new_act (fun ev S => set_acts (dset (acts S) n ev) S) S A (Acted_acts n) (fun ev S => ltac:(cbn; auto 15))) as X.
    assert (Eq : forall k : M nxt, (let! ev := new_event RAct in upd_ (fun S => set_acts (dset (acts S) n ev) S) ;! k) S = ((let! ev := new_event RAct in upd_ (fun S => set_acts (dset (acts S) n ev) S)) ;! k) S) by reflexivity.
    unfold gro. rewrite Eq. eapply gro_bind; [exact X|]. intros _ S1 G1 _. apply gro_extra_loop. exact (r_acted _ _ G1).
  - destruct o as [v|t].
    + assert (Lp : gro (extra_loop O n) S awaits) by (apply gro_extra_loop; exact A). destruct v as [| |g]; [exact Lp|exact Lp|]. cbn [go_on].
      eapply gro_bind with (Q1 := fun _ _ => True); [apply gro_spawn; [exact A|discriminate|exact I]|]. intros pro' S1 G1 _. apply gro_wait_for; [exact (r_acted _ _ G1)|exact I].
    + destruct t as [x| |]; [apply Th|apply Th|]. cbn [go_on]. apply gro_get. eapply gro_bind with (Q1 := fun _ _ => True); [destruct (ended pro S); [apply gro_ret; auto|apply gro_interrupt; auto]|].
      intros _ S1 G1 _. apply gro_extra_loop. exact (r_acted _ _ G1).
  - destruct o as [v|t]; [apply gro_extra_loop; exact A|]. destruct t as [x| |]; [apply Th|apply Th|]. apply gro_extra_loop. exact A.
  - destruct o as [v|t]; [apply gro_local_next; exact A|apply Th].
  - destruct o as [v|t].
    + cbn [go_on]. eapply gro_bind with (Q1 := fun _ S' => hasenv S' = false); [apply gro_upd; auto 15|]. intros _ S1 G1 E1.
      eapply gro_bind with (Q1 := fun _ _ => True); [apply gro_activate; [exact (r_acted _ _ G1)|auto]|]. intros _ S2 G2 _. pose proof (r_hasenv _ _ G2) as E2.
      eapply gro_bind with (Q1 := fun _ _ => True); [apply gro_interact; [exact (r_acted _ _ G2)|congruence|auto]|]. intros _ S3 G3 _. apply gro_local_next. exact (r_acted _ _ G3).
    + destruct t as [x| |]; [apply Th|apply Th|]. apply gro_ret; [exact A|exact I].
  - destruct o; apply gro_ret; auto; exact I.
Qed.

(** ** After the failure *)

Definition going (p : nat) (S : sim) : Prop := exists r, proc_at p S = Some r /\ pcode r <> KEnd.
Definition todo_ok (ev0 : nat) (S : sim) (w : work) : Prop :=
  match w with
  | WEnd ev => exists e, event_at ev S = Some e /\ evalue e <> None /\ ~ dangerous e
  | WRun p _ => going p S
  | WCb ev c => ev <> ev0 /\ match c with CResume p => going p S | CInt _ => True | CCheck _ => False end
  end.
(** The process [p0] has failed; [q0], the end of this process. *)
Record Doom (p0 : nat) (q0 : qent) (S : sim) : Prop := MkDoom {
  d_dead : dead S = None;
  d_env : hasenv S = false;
  d_ev : exists e x, event_at (qev q0) S = Some e /\ erole e = ROwn p0 /\ evalue e = Some (Bad (TExn x)) /\ edefused e = false /\ ecbs e = Some [];
  d_in : In q0 (heap S);
  d_time : qtime q0 = now S;
  d_prio : qprio q0 = NORMAL;
  d_kind : exists r, proc_at p0 S = Some r /\ forall b n, pkind r <> Some (GLocal b n);
  d_heap : forall q, In q (heap S) -> qid q < eid S /\ exists e, event_at (qev q) S = Some e /\ evalue e <> None /\ (dangerous e -> NORMAL <= qprio q /\ qid q0 < qid q);
  d_cbs : forall ev e p, event_at ev S = Some e -> In (CResume p) (cbs_of e) -> going p S;
  d_chk : forall ev e c, event_at ev S = Some e -> ~ In (CCheck c) (cbs_of e);
  d_todo : forall w, In w (todo S) -> todo_ok (qev q0) S w }.
(** The failure is about to end the run. *)
Definition Last (S : sim) : Prop :=
  dead S = None /\ exists ev e x, todo S = [WEnd ev] /\ event_at ev S = Some e /\ evalue e = Some (Bad (TExn x)) /\ edefused e = false.
Definition Fallen (S : sim) : Prop := exists x, dead S = Some (TExn x).

Lemma Doom_gro p0 q0 S S' : Doom p0 q0 S -> Gro S S' -> Doom p0 q0 S'.
Proof.
  intros [D1 D2 D3 D4 D5 D6 D7 D8 D9 D10 D11] [G1 G2 G3 G4 G5 G6 G7 G8 G9 G10 G11].
  destruct G6 as (new & Eh & Hn). destruct (D8 q0 D4) as [L0 _].
  assert (Gp : forall p, going p S -> going p S') by (intros p (r & A & B); exists r; auto).
  constructor; try congruence.
  - destruct D3 as (e & x & A1 & A2 & A3 & A4 & A5). destruct (G7 _ _ A1) as (e' & B1 & B2 & B3 & B4 & B5). exists e', x. split; [exact B1|]. split; [congruence|]. split; [|split; congruence]. destruct B5 as [B5|[B5 _]]; congruence.
  - rewrite Eh. apply in_or_app. auto.
  - destruct D7 as (r & A & B). exists r. auto.
  - intros q Hq. rewrite Eh in Hq. apply in_app_or in Hq. destruct Hq as [Hq|Hq].
    + destruct (D8 q Hq) as (A & e & B1 & B2 & B3). split; [lia|]. destruct (G7 _ _ B1) as (e' & C1 & C2). exists e'. split; [exact C1|]. split; [exact (later_value _ _ C2 B2)|]. intros Da. apply B3. exact (later_safe _ _ C2 Da).
    + destruct (Hn q Hq) as (A & e & B1 & B2 & B3). split; [lia|]. exists e. split; [exact B1|]. split; [exact B2|]. intros Da. elim (B3 Da).
  - intros ev e p He Hp. destruct (event_at ev S) as [x|] eqn:Ex.
    + destruct (G7 _ _ Ex) as (e' & C1 & _ & _ & C2 & _). assert (e' = e) by congruence. subst e'. apply Gp. apply (D9 ev x p Ex). unfold cbs_of in *. rewrite <- C2. exact Hp.
    + destruct (G8 ev e He Ex) as (_ & F & _). destruct (F p Hp) as (_ & r & A & B). exists r. auto.
  - intros ev e c He Hc. destruct (event_at ev S) as [x|] eqn:Ex.
    + destruct (G7 _ _ Ex) as (e' & C1 & _ & _ & C2 & _). assert (e' = e) by congruence. subst e'. apply (D10 ev x c Ex). unfold cbs_of in *. rewrite <- C2. exact Hc.
    + destruct (G8 ev e He Ex) as (_ & _ & F & _). exact (F c Hc).
  - intros w Hw. rewrite G2 in Hw. specialize (D11 w Hw). destruct w as [ev [p|p|c]|p o|ev]; cbn [todo_ok] in *; try tauto.
    + destruct D11 as [A B]. split; [exact A|exact (Gp p B)].
    + exact (Gp p D11).
    + destruct D11 as (e & A & B & C). destruct (G7 _ _ A) as (e' & E1 & E2). exists e'. split; [exact E1|]. split; [exact (later_value _ _ E2 B)|]. intros Da. exact (C (later_safe _ _ E2 Da)).
Qed.

(** Changes of events and processes that leave values as they are. *)
Definition softer (e e' : evt) : Prop := erole e' = erole e /\ evalue e' = evalue e /\ (edefused e = true -> edefused e' = true).
Lemma softer_refl e : softer e e. Proof. repeat split; auto. Qed.
Lemma softer_safe e e' : softer e e' -> dangerous e' -> dangerous e.
Proof. intros (_ & A & B) (C & t & D & E). split; [|exists t; split; [congruence|exact E]]. destruct (edefused e); [|reflexivity]. rewrite (B eq_refl) in C. discriminate. Qed.
Lemma Doom_gen p0 q0 S S' : Doom p0 q0 S -> dead S' = dead S -> hasenv S' = hasenv S -> now S' = now S -> eid S' = eid S -> heap S' = heap S ->
  (forall ev e, event_at ev S = Some e -> exists e', event_at ev S' = Some e' /\ softer e e') ->
  event_at (qev q0) S' = event_at (qev q0) S ->
  (forall p r, proc_at p S = Some r -> exists r', proc_at p S' = Some r' /\ pkind r' = pkind r) ->
  (forall ev e p, event_at ev S' = Some e -> In (CResume p) (cbs_of e) -> going p S') ->
  (forall ev e c, event_at ev S' = Some e -> ~ In (CCheck c) (cbs_of e)) ->
  (forall w, In w (todo S') -> todo_ok (qev q0) S' w) -> Doom p0 q0 S'.
Proof.
  intros [D1 D2 D3 D4 D5 D6 D7 D8 D9 D10 D11] E1 E2 E3 E4 E5 He H0 Hp Hr Hc Ht. constructor; try congruence; auto.
  - rewrite H0. exact D3.
  - destruct D7 as (r & A & B). destruct (Hp _ _ A) as (r' & A' & K). exists r'. split; [exact A'|]. rewrite K. exact B.
  - intros q Hq. rewrite E5 in Hq. destruct (D8 q Hq) as (A & e & B1 & B2 & B3). split; [lia|]. destruct (He _ _ B1) as (e' & C1 & C2). exists e'. split; [exact C1|]. split; [destruct C2 as (_ & C2 & _); congruence|].
    intros Da. apply B3. exact (softer_safe _ _ C2 Da).
Qed.
Lemma going_tail l p S : going p (set_todo l S) <-> going p S. Proof. reflexivity. Qed.
Lemma todo_ok_same ev0 S S' w : (forall ev e, event_at ev S = Some e -> exists e', event_at ev S' = Some e' /\ softer e e') -> (forall p, (exists o, w = WRun p o) \/ (exists ev, w = WCb ev (CResume p)) -> going p S -> going p S') ->
  todo_ok ev0 S w -> todo_ok ev0 S' w.
Proof.
  intros He Hp. destruct w as [ev [p|p|c]|p o|ev]; cbn [todo_ok].
  - intros [A B]. split; [exact A|]. apply Hp; eauto.
  - auto.
  - auto.
  - apply Hp; eauto.
  - intros (e & A & B & C). destruct (He _ _ A) as (e' & E1 & E2). exists e'. split; [exact E1|]. split; [destruct E2 as (_ & E2 & _); congruence|]. intros Da. exact (C (softer_safe _ _ E2 Da)).
Qed.
Lemma Doom_tail p0 q0 S w l : Doom p0 q0 S -> todo S = w :: l -> Doom p0 q0 (set_todo l S).
Proof.
  intros H E. apply (Doom_gen p0 q0 S); auto.
  - intros ev e He. exists e. split; [exact He|apply softer_refl].
  - intros p r Hp. exists r. auto.
  - exact (d_cbs _ _ _ H).
  - exact (d_chk _ _ _ H).
  - intros x Hx. apply (d_todo _ _ _ H). rewrite E. right. exact Hx.
Qed.
(** One event changes. *)
Lemma Doom_event p0 q0 S ev e e' l : Doom p0 q0 S -> event_at ev S = Some e -> softer e e' -> (ev = qev q0 -> e' = e) ->
  (forall p, In (CResume p) (cbs_of e') -> In (CResume p) (cbs_of e)) -> (forall c, In (CCheck c) (cbs_of e') -> In (CCheck c) (cbs_of e)) ->
  (forall w, In w l -> In w (todo S) \/ todo_ok (qev q0) S w) -> Doom p0 q0 (set_todo l (changed ev e' S)).
Proof.
  intros H He Hs H0 Hr Hc Ht.
  assert (At : forall i, event_at i (set_todo l (changed ev e' S)) = if Nat.eqb i ev then Some e' else event_at i S) by (intros i; exact (at_changed i ev e' e S He)).
  assert (Sf : forall i x, event_at i S = Some x -> exists x', event_at i (set_todo l (changed ev e' S)) = Some x' /\ softer x x').
  { intros i x Hx. rewrite At. destruct (Nat.eqb_spec i ev) as [->|N]; [assert (x = e) by congruence; subst x; exists e'; auto|exists x; split; [exact Hx|apply softer_refl]]. }
  apply (Doom_gen p0 q0 S); auto.
  - rewrite At. destruct (Nat.eqb_spec (qev q0) ev) as [E|N]; [|reflexivity]. rewrite (H0 (eq_sym E)), E. symmetry. exact He.
  - intros p r Hp. exists r. auto.
  - intros i x p Hx Hp. rewrite At in Hx. destruct (Nat.eqb_spec i ev) as [->|N]; [|exact (d_cbs _ _ _ H i x p Hx Hp)]. injection Hx as <-. exact (d_cbs _ _ _ H ev e p He (Hr p Hp)).
  - intros i x c Hx Hp. rewrite At in Hx. destruct (Nat.eqb_spec i ev) as [->|N]; [|exact (d_chk _ _ _ H i x c Hx Hp)]. injection Hx as <-. exact (d_chk _ _ _ H ev e c He (Hc c Hp)).
  - intros w Hw. apply (todo_ok_same _ S); auto. destruct (Ht w Hw) as [X|X]; [exact (d_todo _ _ _ H w X)|exact X].
Qed.
(** The process [p] stays alive. *)
Lemma Doom_prc p0 q0 S p r r' : Doom p0 q0 S -> proc_at p S = Some r -> pkind r' = pkind r -> pcode r' <> KEnd -> Doom p0 q0 (set_prs (upd (prs S) p r') S).
Proof.
  intros H Hp Hk Hc. assert (Pa : forall i, proc_at i (set_prs (upd (prs S) p r') S) = if Nat.eqb i p then Some r' else proc_at i S) by (intros i; exact (pat_upd i p r' r S Hp)).
  assert (Gp : forall i, going i S -> going i (set_prs (upd (prs S) p r') S)).
  { intros i (x & A & B). destruct (Nat.eqb_spec i p) as [->|N]; [exists r'|exists x]; rewrite Pa; [rewrite Nat.eqb_refl; auto|]. destruct (Nat.eqb_spec i p); [contradiction|auto]. }
  apply (Doom_gen p0 q0 S); auto.
  - intros ev e He. exists e. split; [exact He|apply softer_refl].
  - intros i x Hx. rewrite Pa. destruct (Nat.eqb_spec i p) as [->|N]; [exists r'; split; [reflexivity|congruence]|exists x; auto].
  - intros ev e i He Hi. apply Gp. exact (d_cbs _ _ _ H ev e i He Hi).
  - exact (d_chk _ _ _ H).
  - intros w Hw. apply (todo_ok_same _ S); auto; [|exact (d_todo _ _ _ H w Hw)]. intros ev e He. exists e. split; [exact He|apply softer_refl].
Qed.
Lemma Doom_watch p0 q0 S p ev e l : Doom p0 q0 S -> going p S -> event_at ev S = Some e -> ecbs e = Some l -> ev <> qev q0 -> Doom p0 q0 (changed ev (MkEvt (erole e) (evalue e) (edefused e) (Some (l ++ [CResume p]))) S).
Proof.
  intros H Hp He Hl N. set (e' := MkEvt _ _ _ _).
  assert (At : forall i, event_at i (changed ev e' S) = if Nat.eqb i ev then Some e' else event_at i S) by (intros i; exact (at_changed i ev e' e S He)).
  assert (Sf : forall i x, event_at i S = Some x -> exists x', event_at i (changed ev e' S) = Some x' /\ softer x x').
  { intros i x Hx. rewrite At. destruct (Nat.eqb_spec i ev) as [->|M]; [assert (x = e) by congruence; subst x; exists e'; split; [reflexivity|repeat split; auto]|exists x; split; [exact Hx|apply softer_refl]]. }
  apply (Doom_gen p0 q0 S); auto.
  - rewrite At. destruct (Nat.eqb_spec (qev q0) ev) as [E|M]; [congruence|reflexivity].
  - intros i r Hi. exists r. auto.
  - intros i x k Hx Hk. rewrite At in Hx. destruct (Nat.eqb_spec i ev) as [->|M]; [|exact (d_cbs _ _ _ H i x k Hx Hk)]. injection Hx as <-. cbn [cbs_of ecbs e'] in Hk. apply in_app_or in Hk. destruct Hk as [Hk|[[= <-]|[]]]; [|exact Hp].
    apply (d_cbs _ _ _ H ev e k He). unfold cbs_of. rewrite Hl. exact Hk.
  - intros i x k Hx Hk. rewrite At in Hx. destruct (Nat.eqb_spec i ev) as [->|M]; [|exact (d_chk _ _ _ H i x k Hx Hk)]. injection Hx as <-. cbn [cbs_of ecbs e'] in Hk. apply in_app_or in Hk. destruct Hk as [Hk|[Hk|[]]]; [|discriminate].
    apply (d_chk _ _ _ H ev e k He). unfold cbs_of. rewrite Hl. exact Hk.
  - intros w Hw. apply (todo_ok_same _ S); auto. exact (d_todo _ _ _ H w Hw).
Qed.
(** The process [p] ends. *)
Lemma Doom_finished p0 q0 S p r o e : Doom p0 q0 S -> proc_at p S = Some r -> event_at (pown r) S = Some e -> evalue e = None ->
  (forall i x, event_at i S = Some x -> ~ In (CResume p) (cbs_of x)) -> (forall ev, ~ In (WCb ev (CResume p)) (todo S)) -> (forall o, ~ In (WRun p o) (todo S)) ->
  Doom p0 q0 (finished p r o e S).
Proof.
  intros H Hp He Hv Ne Nc Nr. set (S' := finished p r o e S). set (e' := valued o e). set (r' := MkPrc (pkind r) (pown r) (ptarget r) KEnd).
  assert (At : forall i, event_at i S' = if Nat.eqb i (pown r) then Some e' else event_at i S) by (intros i; exact (at_changed i (pown r) e' e _ He)).
  assert (Pa : forall i, proc_at i S' = if Nat.eqb i p then Some r' else proc_at i S) by (intros i; exact (pat_upd i p r' r S Hp)).
  assert (N0 : qev q0 <> pown r) by (intros E; destruct (d_ev _ _ _ H) as (x & y & A1 & _ & A2 & _); rewrite E in A1; congruence).
  destruct (d_heap _ _ _ H q0 (d_in _ _ _ H)) as [L0 _].
  assert (Gp : forall i, i <> p -> going i S -> going i S').
  { intros i N (x & A & B). exists x. rewrite Pa. destruct (Nat.eqb_spec i p); [contradiction|auto]. }
  constructor.
  - exact (d_dead _ _ _ H).
  - exact (d_env _ _ _ H).
  - rewrite At. destruct (Nat.eqb_spec (qev q0) (pown r)); [contradiction|]. exact (d_ev _ _ _ H).
  - apply in_or_app. left. exact (d_in _ _ _ H).
  - exact (d_time _ _ _ H).
  - exact (d_prio _ _ _ H).
  - destruct (d_kind _ _ _ H) as (x & A & B). rewrite Pa. destruct (Nat.eqb_spec p0 p) as [E|N]; [|exists x; auto]. exists r'. split; [reflexivity|]. assert (x = r) by congruence. subst x. exact B.
  - intros q Hq. change (heap S') with (heap S ++ [MkQ (now S + 0) NORMAL (eid S) (pown r)]) in Hq. change (eid S') with (Datatypes.S (eid S)). apply in_app_or in Hq. destruct Hq as [Hq|[<-|[]]].
    + destruct (d_heap _ _ _ H q Hq) as (A & x & B1 & B2 & B3). split; [lia|]. rewrite At. destruct (Nat.eqb_spec (qev q) (pown r)) as [E|N]; [exfalso; rewrite E in B1; congruence|exists x; auto].
    + cbn [qid qev qprio]. split; [lia|]. rewrite At, Nat.eqb_refl. exists e'. split; [reflexivity|]. split; [discriminate|]. intros _. split; [apply le_n|exact L0].
  - intros i x k Hx Hk. rewrite At in Hx. assert (X : exists y, event_at i S = Some y /\ In (CResume k) (cbs_of y)).
    { destruct (Nat.eqb_spec i (pown r)) as [->|N]; [injection Hx as <-; exists e; auto|exists x; auto]. }
    destruct X as (y & Hy & Iy). apply Gp; [intros ->; exact (Ne i y Hy Iy)|exact (d_cbs _ _ _ H i y k Hy Iy)].
  - intros i x k Hx Hk. rewrite At in Hx. destruct (Nat.eqb_spec i (pown r)) as [->|N]; [injection Hx as <-; exact (d_chk _ _ _ H _ e k He Hk)|exact (d_chk _ _ _ H i x k Hx Hk)].
  - intros w Hw. change (todo S') with (todo S) in Hw. pose proof (d_todo _ _ _ H w Hw) as D. destruct w as [ev [k|k|c]|k ok|ev]; cbn [todo_ok] in *; auto.
    + destruct D as [D1 D2]. split; [exact D1|]. apply Gp; [intros ->; exact (Nc ev Hw)|exact D2].
    + apply Gp; [intros ->; exact (Nr ok Hw)|exact D].
    + destruct D as (x & A & B & C). rewrite At. destruct (Nat.eqb_spec ev (pown r)) as [->|N]; [congruence|]. exists x. auto.
Qed.

(** ** Steps after the failure *)

Lemma firm_own p0 c ev S : Inv S -> firm c -> fits S c ev -> (exists r, proc_at p0 S = Some r /\ forall b n, pkind r <> Some (GLocal b n)) -> ~ role_at ev (ROwn p0) S.
Proof.
  intros H F Hf (r & Hr & Hk) (e & He & R).
  assert (X : forall pro x, proc_at pro S = Some x -> pown x = ev -> (exists b n, pkind x = Some (GLocal b n)) -> False).
  { intros pro x A B (b & n & C). destruct (i_own _ H _ _ A) as (y & Hy & Ry & _). rewrite B in Hy. assert (y = e) by congruence. subst y. assert (pro = p0) by congruence. subst pro. assert (x = r) by congruence. subst x. exact (Hk b n C). }
  destruct c; cbn [firm fits] in F, Hf; try contradiction.
  - destruct Hf as (pro & x & A & B & C). exact (X pro x A C (ex_intro _ _ (ex_intro _ _ B))).
  - destruct Hf as (x & A & B & C). exact (X _ x A C (ex_intro _ _ (ex_intro _ _ B))).
  - destruct Hf as (x & A & B & C). exact (X _ x A C (ex_intro _ _ (ex_intro _ _ B))).
  - destruct Hf as (x & A & B). congruence.
  - destruct Hf as (x & A & B). congruence.
Qed.

Lemma doom_run O p0 q0 p o l S : Inv S -> Doom p0 q0 S -> todo S = WRun p o :: l -> Doom p0 q0 (work_off O (WRun p o) (set_todo l S)).
Proof.
  intros H D E. destruct (Inv_tail _ _ _ H E) as [H1 Nc]. pose proof (Doom_tail _ _ _ _ _ D E) as D1.
  assert (Gp : going p S) by (apply (d_todo _ _ _ D (WRun p o)); rewrite E; left; reflexivity). destruct Gp as (r & Hr & Kc).
  cbn [work_off]. change (nth_error (prs (set_todo l S)) p) with (proc_at p S). rewrite Hr.
  destruct (run_tokens _ _ _ _ H E r Hr) as [HE HT]. set (S1 := set_todo l S) in *.
  assert (A1 : Acted S1) by (split; [exact (i_pact _ H)|exact (i_acts _ H)]).
  pose proof (i_kind _ H1 p r Hr) as [Hk Hkn]. pose proof (i_fits _ H1 p r Hr) as Hf. destruct Hk as [Hk|Hk]; [contradiction|].
  assert (Ho : ~ outside (pcode r)).
  { intros Ho. assert (X : hasenv S1 = true) by (apply (i_env _ H1 p r Hr); rewrite Hk; destruct (pcode r); try contradiction; exact I). pose proof (d_env _ _ _ D1). congruence. }
  assert (G : tri2 (go_on O p (pcode r) o) S1 (lands (pkind r))).
  { apply (go_on_ok _ _ _ _ _ (ptarget r)); auto; [apply (i_env _ H1 _ _ Hr)|]. intros v t -> Du. apply (i_due _ H p r v t Hr); [|exact Du]. rewrite E. left. reflexivity. }
  pose proof (gro_go_on O p (pcode r) o S1 A1 (d_env _ _ _ D1) Ho) as R.
  unfold tri2 in G. unfold gro in R. destruct (go_on O p (pcode r) o S1) as [S2 x]. destruct G as (H2 & W & L). destruct R as (R & Aw).
  pose proof (Doom_gro _ _ _ _ D1 R) as D2. pose proof (r_prs _ _ R _ _ Hr) as Hr2.
  assert (HE2 : tokE p S2 = 0). { rewrite (w_tok _ _ W); [exact HE|]. apply nth_error_Some. unfold proc_at in Hr. cbn. congruence. }
  assert (HT2 : tokT p S2 = 0). { unfold tokT. rewrite (w_todo _ _ W). exact HT. }
  destruct (i_own _ H2 p r Hr2) as (eo & Heo & Ro & Vo).
  assert (Fin : forall u, Doom p0 q0 (end_process p u S2)).
  { intros u. rewrite (end_eq p r u eo S2 Hr2 Heo). apply Doom_finished; auto; [tauto|intros i y Hy; exact (tok0_res p S2 i y HE2 Hy)|intros i; exact (tok0_resw p S2 i HT2)|intros i; exact (tok0_run p S2 i HT2)]. }
  destruct x as [[c ev|v]|t]; [|apply Fin|apply Fin]. destruct L as (Kk & (e & He & Hn) & Hf2 & Hp2). cbn [awaits] in Aw.
  assert (Cc : c <> KEnd) by (apply kind_end; congruence).
  assert (Nq : ev <> qev q0).
  { intros ->. destruct (d_ev _ _ _ D2) as (e0 & x0 & X1 & X2 & _). destruct Aw as [F|(y & Y1 & Y2)]; [|elim (Y2 p0); congruence].
    apply (firm_own p0 c (qev q0) S2 H2 F Hf2 (d_kind _ _ _ D2)). exists e0. auto. }
  set (r1 := MkPrc (pkind r) (pown r) (ptarget r) c). rewrite (set_prc_at _ _ _ _ Hr2). fold r1. set (S3 := set_prs (upd (prs S2) p r1) S2).
  assert (D3 : Doom p0 q0 S3) by (apply (Doom_prc p0 q0 S2 p r r1 D2 Hr2 eq_refl Cc)).
  assert (Hr3 : proc_at p S3 = Some r1) by (unfold S3; rewrite (pat_upd p p r1 r S2 Hr2), Nat.eqb_refl; reflexivity).
  assert (Gg : going p S3) by (exists r1; auto).
  assert (He3 : event_at ev S3 = Some e) by exact He.
  unfold hand_over. rewrite He3.
  assert (Wait : forall k, ecbs e = k -> (forall u, k = None -> evalue e <> Some u) -> Doom p0 q0 (set_prc p (fun r => MkPrc (pkind r) (pown r) ev (pcode r)) (exec_ (add_cb ev (CResume p)) S3))).
  { intros k Ek Hu. unfold exec_, add_cb, set_event, upd_. cbn [fst]. change (nth_error (evs S3) ev) with (event_at ev S3). rewrite He3, Ek. set (S4 := set_evs _ S3).
    assert (D4 : Doom p0 q0 S4).
    { destruct k as [k|]; [exact (Doom_watch p0 q0 S3 p ev e k D3 Gg He3 Ek Nq)|].
      assert (X : S4 = S3); [|rewrite X; exact D3]. unfold S4. replace (MkEvt (erole e) (evalue e) (edefused e) None) with e by (destruct e; cbn in *; congruence).
      replace (upd (evs S3) ev e) with (evs S3); [destruct S3; reflexivity|]. clear -He3. unfold event_at in He3. revert ev He3. induction (evs S3) as [|y ys IH]; intros [|i] Hi; cbn in *; try discriminate; [congruence|]. rewrite <- (IH i Hi). reflexivity. }
    assert (Hr4 : proc_at p S4 = Some r1) by exact Hr3. rewrite (set_prc_at _ _ _ _ Hr4). apply (Doom_prc p0 q0 S4 p r1); auto. }
  destruct (ecbs e) as [k|] eqn:Ek; [apply (Wait (Some k) eq_refl); discriminate|]. destruct (evalue e) as [u|] eqn:Eu; [|apply (Wait None eq_refl); congruence].
  rewrite (defuse_eq ev e u S3 He3).
  assert (Tk : forall w, In w (WRun p u :: todo (defused ev e u S3)) -> In w (todo S3) \/ todo_ok (qev q0) S3 w).
  { intros w [<-|Hw]; [right; exact Gg|left]. destruct u; exact Hw. }
  destruct u as [v|t]; cbn [defused] in *.
  - apply (Doom_gen p0 q0 S3); auto.
    + intros i y Hy. exists y. split; [exact Hy|apply softer_refl].
    + intros i y Hy. exists y. auto.
    + exact (d_cbs _ _ _ D3).
    + exact (d_chk _ _ _ D3).
    + intros w Hw. destruct (Tk w Hw) as [X|X]; [exact (d_todo _ _ _ D3 w X)|exact X].
  - apply (Doom_event p0 q0 S3 ev e); auto; [repeat split; auto|congruence].
Qed.

Lemma doom_step O p0 q0 S S' : Inv S -> Doom p0 q0 S -> sim_step O S = Some S' -> Doom p0 q0 S' \/ Last S' \/ Fallen S'.
Proof.
  intros H D. unfold sim_step. rewrite (d_dead _ _ _ D). destruct (todo S) as [|w l] eqn:Et.
  - destruct (pop_min (heap S)) as [[q h]|] eqn:Ep; [|discriminate]. cbv zeta. change (event_at (qev q) (set_now (qtime q) (set_queue (eid S) h S))) with (event_at (qev q) S).
    destruct (pop_min_split _ _ _ Ep) as (l1 & l2 & El & Eh & Min).
    assert (Hq : In q (heap S)) by (rewrite El; apply in_or_app; cbn; auto).
    assert (Sub : forall x, In x h -> In x (heap S)) by (intros x Hx; rewrite El; rewrite Eh in Hx; apply in_app_or in Hx; apply in_or_app; cbn; tauto).
    destruct (d_heap _ _ _ D q Hq) as (Iq & e & He & Ve & De). rewrite He. unfold exec_, set_event, upd_. cbn [fst evs set_now set_queue]. change (nth_error (evs S) (qev q)) with (event_at (qev q) S). rewrite He. intros [= <-].
    set (e' := MkEvt (erole e) (evalue e) (edefused e) None). set (S2 := set_todo _ _).
    assert (At : forall i, event_at i S2 = if Nat.eqb i (qev q) then Some e' else event_at i S) by (intros i; exact (at_changed i (qev q) e' e S He)).
    destruct (Nat.eq_dec (qev q) (qev q0)) as [Eq|Nq].
    + right. left. split; [exact (d_dead _ _ _ D)|]. destruct (d_ev _ _ _ D) as (e0 & x & A1 & A2 & A3 & A4 & A5). rewrite <- Eq in A1. assert (e0 = e) by congruence. subst e0.
      exists (qev q), e', x. split; [unfold S2; rewrite A5; reflexivity|]. split; [rewrite At, Nat.eqb_refl; reflexivity|auto].
    + left. pose proof (Min q0 (d_in _ _ _ D)) as M0. destruct (i_heap _ H q Hq) as [Lq _]. pose proof (d_time _ _ _ D) as T0. pose proof (d_prio _ _ _ D) as P0.
      assert (Tq : qtime q = now S) by (unfold before in M0; lia).
      constructor.
      * exact (d_dead _ _ _ D).
      * exact (d_env _ _ _ D).
      * rewrite At. destruct (Nat.eqb_spec (qev q0) (qev q)); [congruence|]. exact (d_ev _ _ _ D).
      * change (In q0 h). pose proof (d_in _ _ _ D) as I0. rewrite El in I0. rewrite Eh. apply in_app_or in I0. apply in_or_app. destruct I0 as [I0|[I0|I0]]; [auto|congruence|auto].
      * change (now S2) with (qtime q). congruence.
      * exact P0.
      * exact (d_kind _ _ _ D).
      * intros x Hx. destruct (d_heap _ _ _ D x (Sub x Hx)) as (A & y & B1 & B2 & B3). split; [exact A|]. rewrite At. destruct (Nat.eqb_spec (qev x) (qev q)) as [E|N]; [|exists y; auto].
        rewrite E in B1. assert (y = e) by congruence. subst y. exists e'. auto.
      * intros i x p Hx Hp. rewrite At in Hx. destruct (Nat.eqb_spec i (qev q)) as [->|N]; [injection Hx as <-; destruct Hp|exact (d_cbs _ _ _ D i x p Hx Hp)].
      * intros i x p Hx Hp. rewrite At in Hx. destruct (Nat.eqb_spec i (qev q)) as [->|N]; [injection Hx as <-; destruct Hp|exact (d_chk _ _ _ D i x p Hx Hp)].
      * intros w Hw. apply in_app_or in Hw. destruct Hw as [Hw|[<-|[]]].
        -- apply in_map_iff in Hw. destruct Hw as (c & <- & Hc). split; [exact Nq|]. change (In c (cbs_of e)) in Hc. destruct c as [p|p|c]; [exact (d_cbs _ _ _ D _ _ p He Hc)|exact I|exact (d_chk _ _ _ D _ _ c He Hc)].
        -- cbn [todo_ok]. exists e'. rewrite At, Nat.eqb_refl. split; [reflexivity|]. split; [exact Ve|]. intros Da. destruct (De Da) as [X1 X2]. unfold before in M0. lia.
  - intros [= <-]. destruct w as [ev [p|p|c]|p o|ev].
    + destruct (d_todo _ _ _ D (WCb ev (CResume p))) as [Nq Gp]; [rewrite Et; left; reflexivity|]. pose proof (Doom_tail _ _ _ _ _ D Et) as D1. cbn [work_off]. left.
      change (event_at ev (set_todo l S)) with (event_at ev S). destruct (event_at ev S) as [e|] eqn:He; [|exact D1]. destruct (evalue e) as [u|] eqn:Eu; [|exact D1].
      set (S1 := set_todo l S) in *. assert (He1 : event_at ev S1 = Some e) by exact He. rewrite (defuse_eq ev e u S1 He1).
      assert (Tk : forall w, In w (WRun p u :: todo S1) -> In w (todo S1) \/ todo_ok (qev q0) S1 w) by (intros w [<-|Hw]; [right; exact Gp|left; exact Hw]).
      destruct u as [v|t]; cbn [defused].
      * apply (Doom_gen p0 q0 S1); auto.
        -- intros i y Hy. exists y. split; [exact Hy|apply softer_refl].
        -- intros i y Hy. exists y. auto.
        -- exact (d_cbs _ _ _ D1).
        -- exact (d_chk _ _ _ D1).
        -- intros w Hw. destruct (Tk w Hw) as [X|X]; [exact (d_todo _ _ _ D1 w X)|exact X].
      * apply (Doom_event p0 q0 S1 ev e); auto; [repeat split; auto|congruence].
    + pose proof (Doom_tail _ _ _ _ _ D Et) as D1. destruct (Inv_tail _ _ _ H Et) as [H1 _]. set (S1 := set_todo l S) in *. cbn [work_off]. left. destruct (ended p S1) eqn:Ee; [exact D1|]. change (nth_error (prs S1) p) with (proc_at p S1).
      destruct (proc_at p S1) as [r|] eqn:Hr; [|exact D1].
      assert (Gp : going p S1).
      { exists r. split; [exact Hr|]. intros K. destruct (i_own _ H1 p r Hr) as (y & Hy & _ & Vy). unfold ended, trig, own_event in Ee. change (nth_error (prs S1) p) with (proc_at p S1) in Ee. rewrite Hr in Ee. unfold event_at in *. rewrite Hy in Ee. unfold triggered in Ee.
        destruct (evalue y) eqn:Ev; [discriminate|]. apply (proj1 Vy eq_refl). exact K. }
      unfold exec_, set_event, upd_. cbn [fst]. change (nth_error (evs S1) (ptarget r)) with (event_at (ptarget r) S1).
      assert (Tk : forall w, In w (WRun p (Bad TInterrupt) :: todo S1) -> In w (todo S1) \/ todo_ok (qev q0) S1 w) by (intros w [<-|Hw]; [right; exact Gp|left; exact Hw]).
      destruct (event_at (ptarget r) S1) as [e|] eqn:He.
      * apply (Doom_event p0 q0 S1 (ptarget r) e); auto.
        -- repeat split; auto.
        -- intros E. destruct (d_ev _ _ _ D1) as (e0 & x & A1 & _ & _ & _ & A5). rewrite <- E in A1. assert (e0 = e) by congruence. subst e0. rewrite A5. cbn [remove_cb]. destruct e; cbn in *; congruence.
        -- intros i. unfold cbs_of. cbn [ecbs]. destruct (ecbs e) as [k|]; [apply remove_cb_In|auto].
        -- intros i. unfold cbs_of. cbn [ecbs]. destruct (ecbs e) as [k|]; [apply remove_cb_In|auto].
      * apply (Doom_gen p0 q0 S1); auto.
        -- intros i y Hy. exists y. split; [exact Hy|apply softer_refl].
        -- intros i y Hy. exists y. auto.
        -- exact (d_cbs _ _ _ D1).
        -- exact (d_chk _ _ _ D1).
        -- intros w Hw. destruct (Tk w Hw) as [X|X]; [exact (d_todo _ _ _ D1 w X)|exact X].
    + destruct (d_todo _ _ _ D (WCb ev (CCheck c))) as [_ []]. rewrite Et. left. reflexivity.
    + left. apply doom_run; assumption.
    + destruct (d_todo _ _ _ D (WEnd ev)) as (e & He & Ve & De); [rewrite Et; left; reflexivity|]. pose proof (Doom_tail _ _ _ _ _ D Et) as D1. cbn [work_off]. change (event_at ev (set_todo l S)) with (event_at ev S). rewrite He.
      destruct (evalue e) as [[v|t]|] eqn:Ev; [left; exact D1| |left; exact D1]. destruct (edefused e) eqn:Ed; [left; exact D1|]. right. right. destruct t as [x| |]; [exists x; reflexivity| |]; elim De; split; auto; eexists; (split; [exact Ev|]); [left|right]; reflexivity.
Qed.
Lemma last_step O S S' : Last S -> sim_step O S = Some S' -> Fallen S'.
Proof.
  intros (A & ev & e & x & B & C & D & E). unfold sim_step. rewrite A, B. intros [= <-]. cbn [work_off]. change (event_at ev (set_todo [] S)) with (event_at ev S). rewrite C, D, E. exists x. reflexivity.
Qed.
Lemma fallen_step O S : Fallen S -> sim_step O S = None.
Proof. intros (x & E). unfold sim_step. rewrite E. reflexivity. Qed.
