(** Simulations without environment in which no rule sends two requests to a buffer: the scheduling is sound. *)
From Coq Require Import Lia Sorted.
From Verif Require Import Base BaseFacts Chunks DecMem Buffers BufferFacts Productions ProdSpec LearnFacts Sim SimFacts RunFacts LiftFacts SafeSpec RequestFacts QueueFacts.
Local Open Scope string_scope.
Local Open Scope list_scope.
Local Open Scope nat_scope.

(** ** Processes of buffers and their interruptions *)

Definition cnt (n : string) (S : sim) : nat := count_occ string_dec (names_of (sprocs (ss S))) n.
Definition is_int (p : nat) (S : sim) (q : qent) : bool :=
  match event_at (qev q) S with Some e => match erole e with RInt p' => Nat.eqb p' p | _ => false end | None => false end.
(** The interruptions of [p] that are on their way. *)
Definition hits (p : nat) (S : sim) : nat := List.length (filter (is_int p S) (heap S)).
Definition atrig (n : string) (S : sim) : bool := match dget (acts S) n with Some ev => trig S ev | None => false end.
Definition xcode (n : string) (c : code) : Prop := match c with KExtra0 m | KExtraAct m | KExtraPro m _ | KExtraCont m _ => m = n | _ => False end.
Definition mcode (c : code) : Prop := match c with KProc0 | KProcPro _ | KProcAct | KProcZero _ => True | _ => False end.
Definition busy (n : string) (c : code) : Prop := match c with KExtraPro m _ | KExtraCont m _ => m = n | _ => False end.
Definition chief (c : code) : Prop := match c with KLocal0 true _ _ | KLocal true _ _ _ => True | _ => False end.

Definition sound (e : evt) : Prop :=
  match evalue e with
  | Some (Bad t) => (exists x, t = TExn x) \/ (edefused e = true /\ exists p, erole e = RInt p)
  | Some (Good (XCont g)) => free tame g
  | _ => True
  end.
(** A process at [c] can be interrupted by [q]. *)
Definition hittable (a : option nat) (S : sim) (p : nat) (q : qent) (c : code) : Prop :=
  match c with
  | KExtraPro _ _ | KExtraCont _ _ | KLocal false _ _ _ | KEnd => True
  | KLocal0 false _ _ => a = Some p \/ exists q', In q' (heap S) /\ role_at (qev q') (RInit p) S /\ qid q' < qid q
  | _ => False
  end.
Definition soft_code (c : code) : Prop := match c with KExtraPro _ _ | KExtraCont _ _ | KLocal false _ _ _ | KEnd => True | _ => False end.

(** [W]: the processes of buffers that have been called and will take up their work. *)
Record Sem (W : string -> Prop) (a : option nat) (S : sim) : Prop := MkSem {
  s_main : exists r, proc_at 0 S = Some r /\ mcode (pcode r);
  s_ext : forall n p, dget (extras S) n = Some p -> exists r ev, proc_at p S = Some r /\ xcode n (pcode r) /\ dget (acts S) n = Some ev;
  s_vals : forall ev e, event_at ev S = Some e -> sound e;
  s_hit : forall q p, In q (heap S) -> role_at (qev q) (RInt p) S -> exists r, proc_at p S = Some r /\ hittable a S p q (pcode r);
  s_cnt : forall n p, dget (extras S) n = Some p -> hits p S <= cnt n S;
  s_loc : forall p r, proc_at p S = Some r ->
            match pcode r with
            | KLocal0 true _ _ | KLocal true _ _ _ => a = Some 0 \/ exists r0 f, proc_at 0 S = Some r0 /\ pcode r0 = KProcPro f /\ ptarget r0 = pown r
            | KLocal0 false _ g | KLocal false _ _ g => free tame g
            | _ => True
            end;
  s_busy : forall p r n, proc_at p S = Some r -> busy n (pcode r) -> atrig n S = true;
  s_idle : forall p r n, proc_at p S = Some r -> pcode r = KExtraAct n -> a <> Some p -> atrig n S = true -> dget (inter S) n = None \/ W n;
  s_early : forall l, early S = Some l -> l = [] /\ (exists r, proc_at 0 S = Some r /\ (pcode r = KProc0 \/ pcode r = KProcPro true)) /\
              forall p r n, proc_at p S = Some r -> xcode n (pcode r) -> (pcode r = KExtra0 n \/ pcode r = KExtraAct n) /\ atrig n S = false }.

Definition keeps (S S' : sim) : Prop := forall ev e, event_at ev S = Some e -> exists e', event_at ev S' = Some e' /\ erole e' = erole e.
Definition backed (S : sim) : Prop := forall q, In q (heap S) -> exists e, event_at (qev q) S = Some e.
Lemma Que_backed a S : Que a S -> backed S.
Proof. intros H q Hq. destruct (q_heap _ _ H q Hq) as (_ & _ & e & He & _). eauto. Qed.
Lemma keeps_role S S' ev r : keeps S S' -> role_at ev r S -> role_at ev r S'.
Proof. intros K (e & He & R). destruct (K _ _ He) as (e' & He' & R'). exists e'. split; congruence. Qed.
Lemma keeps_back S S' ev e r : keeps S S' -> event_at ev S = Some e -> role_at ev r S' -> role_at ev r S.
Proof. intros K He (e' & He' & R). destruct (K _ _ He) as (x & Hx & R'). exists e. split; [exact He|]. congruence. Qed.
Lemma keeps_int S S' p q : keeps S S' -> (exists e, event_at (qev q) S = Some e) -> is_int p S' q = is_int p S q.
Proof. intros K (e & He). destruct (K _ _ He) as (e' & He' & R). unfold is_int. rewrite He, He', R. reflexivity. Qed.
Lemma is_int_iff p S q : is_int p S q = true <-> role_at (qev q) (RInt p) S.
Proof.
  unfold is_int, role_at. destruct (event_at (qev q) S) as [e|]; [|split; [discriminate|intros (e & D & _); discriminate]].
  split.
  - intros H. exists e. split; [reflexivity|]. destruct (erole e); try discriminate. apply Nat.eqb_eq in H. congruence.
  - intros (e' & [= <-] & ->). apply Nat.eqb_refl.
Qed.
Lemma hits_snoc p S S' q : keeps S S' -> backed S -> heap S' = heap S ++ [q] -> hits p S' = hits p S + (if is_int p S' q then 1 else 0).
Proof.
  intros K B E. unfold hits. rewrite E, filter_app, app_length. f_equal; [|cbn; destruct (is_int p S' q); reflexivity].
  f_equal. apply filter_ext_in. intros x Hx. apply keeps_int; auto.
Qed.
Lemma hits_same p S S' : keeps S S' -> backed S -> heap S' = heap S -> hits p S' = hits p S.
Proof. intros K B E. unfold hits. rewrite E. f_equal. apply filter_ext_in. intros x Hx. apply keeps_int; auto. Qed.
Lemma hits_none p S q : hits p S = 0 -> In q (heap S) -> ~ role_at (qev q) (RInt p) S.
Proof.
  intros H Hq R. apply is_int_iff in R. unfold hits in H. apply length_zero_iff_nil in H.
  assert (I0 : In q (filter (is_int p S) (heap S))) by (apply filter_In; auto). rewrite H in I0. exact I0.
Qed.
Lemma hits_zero p S : (forall q, In q (heap S) -> ~ role_at (qev q) (RInt p) S) -> hits p S = 0.
Proof.
  intros H. unfold hits. apply length_zero_iff_nil. destruct (filter _ _) as [|q l] eqn:E; [reflexivity|]. exfalso.
  assert (I0 : In q (filter (is_int p S) (heap S))) by (rewrite E; left; reflexivity). apply filter_In in I0. destruct I0 as [I1 I2]. apply (H q I1). apply is_int_iff. exact I2.
Qed.

(** Changes that leave the processes alone. *)
Lemma Sem_gen W W' a S S' new : Sem W a S -> backed S -> keeps S S' -> prs S' = prs S -> extras S' = extras S ->
  early S' = None \/ (early S' = early S /\ forall n, atrig n S' = atrig n S) ->
  (forall n ev, dget (acts S) n = Some ev -> exists ev', dget (acts S') n = Some ev') ->
  (forall n p, dget (extras S) n = Some p -> hits p S <= cnt n S') ->
  (forall ev e, event_at ev S' = Some e -> sound e) ->
  heap S' = heap S ++ new -> (forall q, In q new -> forall p, ~ role_at (qev q) (RInt p) S') ->
  (forall p r n, proc_at p S = Some r -> busy n (pcode r) -> atrig n S = true -> atrig n S' = true) ->
  (forall p r n, proc_at p S = Some r -> pcode r = KExtraAct n -> a <> Some p -> atrig n S' = true -> dget (inter S') n = None \/ W' n) ->
  Sem W' a S'.
Proof.
  intros H B K Ep Ee Eh Ea Hc Hv Hh Hn Hb Hi.
  assert (Pr : forall p, proc_at p S' = proc_at p S) by (intros p; unfold proc_at; rewrite Ep; reflexivity).
  constructor.
  - rewrite Pr. apply H.
  - intros n p Hp. rewrite Ee in Hp. destruct (s_ext _ _ _ H n p Hp) as (r & ev & A & X & C). destruct (Ea _ _ C) as (ev' & C'). exists r, ev'. rewrite Pr. auto.
  - exact Hv.
  - intros q p Hq Hr. rewrite Hh in Hq. apply in_app_or in Hq. destruct Hq as [Hq|Hq]; [|elim (Hn q Hq p Hr)]. destruct (B q Hq) as (e & He).
    destruct (s_hit _ _ _ H q p Hq (keeps_back _ _ _ _ _ K He Hr)) as (r & A & C). exists r. rewrite Pr. split; [exact A|].
    destruct (pcode r) as [| | | | | | | |b n g|[|] n e0 g| | | | |]; try exact C. destruct b; [exact C|]. cbn [hittable] in *.
    destruct C as [C|(q' & C1 & C2 & C3)]; [auto|]. right. exists q'. split; [rewrite Hh; apply in_or_app; auto|]. split; [eapply keeps_role; eauto|exact C3].
  - intros n p Hp. rewrite Ee in Hp. assert (E : hits p S' = hits p S); [|rewrite E; apply (Hc n p Hp)].
    unfold hits. rewrite Hh, filter_app, app_length. assert (F : filter (is_int p S') new = []).
    { destruct (filter (is_int p S') new) as [|q l] eqn:F; [reflexivity|]. exfalso. assert (I0 : In q (filter (is_int p S') new)) by (rewrite F; left; reflexivity).
      apply filter_In in I0. destruct I0 as [I1 I2]. apply (Hn q I1 p). apply is_int_iff. exact I2. }
    rewrite F. cbn. rewrite Nat.add_0_r. f_equal. apply filter_ext_in. intros x Hx. apply keeps_int; auto.
  - intros p r Hr. rewrite Pr in Hr. pose proof (s_loc _ _ _ H p r Hr) as L. rewrite Pr. destruct (pcode r) as [| | | | | | | |[|] ? ?|[|] ? ? ?| | | | |]; exact L.
  - intros p r n Hr Hbu. rewrite Pr in Hr. exact (Hb p r n Hr Hbu (s_busy _ _ _ H p r n Hr Hbu)).
  - intros p r n Hr. rewrite Pr in Hr. exact (Hi p r n Hr).
  - intros l El. destruct Eh as [Eh|[Eh At]]; [congruence|]. rewrite Eh in El. destruct (s_early _ _ _ H l El) as (A & C & D). rewrite Pr. split; [exact A|]. split; [exact C|].
    intros p r n Hr. rewrite Pr in Hr. rewrite At. exact (D p r n Hr).
Qed.

(** A process moves on. *)
Lemma Sem_code W p r r' S : Sem W (Some p) S -> proc_at p S = Some r -> pown r' = pown r ->
  (p = 0 -> mcode (pcode r')) -> (forall n, dget (extras S) n = Some p -> xcode n (pcode r')) ->
  (hits p S = 0 \/ soft_code (pcode r')) ->
  match pcode r' with
  | KLocal0 true _ _ | KLocal true _ _ _ => exists r0 f, proc_at 0 S = Some r0 /\ p <> 0 /\ pcode r0 = KProcPro f /\ ptarget r0 = pown r
  | KLocal0 false _ g | KLocal false _ _ g => free tame g
  | _ => True
  end ->
  (forall n, busy n (pcode r') -> atrig n S = true) ->
  (forall l, early S = Some l -> (p = 0 -> pcode r' = KProc0 \/ pcode r' = KProcPro true) /\
     forall n, xcode n (pcode r') -> (pcode r' = KExtra0 n \/ pcode r' = KExtraAct n) /\ atrig n S = false) ->
  Sem W (Some p) (set_prs (upd (prs S) p r') S).
Proof.
  intros H Hp Ho Hm Hx Hh Hl Hb He. set (S' := set_prs (upd (prs S) p r') S).
  assert (Pr : forall i, proc_at i S' = if Nat.eqb i p then Some r' else proc_at i S) by (intros i; exact (pat_upd i p r' r S Hp)).
  constructor.
  - destruct (s_main _ _ _ H) as (r0 & A & B). rewrite Pr. destruct (Nat.eqb_spec 0 p) as [E|N]; [|eauto]. exists r'. auto.
  - intros n q Hq. destruct (s_ext _ _ _ H n q Hq) as (x & ev & A & B & C). rewrite Pr. destruct (Nat.eqb_spec q p) as [->|N]; [|exists x, ev; auto]. exists r', ev. auto.
  - exact (s_vals _ _ _ H).
  - intros q i Hq Hr. destruct (s_hit _ _ _ H q i Hq Hr) as (x & A & B). rewrite Pr. destruct (Nat.eqb_spec i p) as [->|N]; [|exists x; auto].
    exists r'. split; [reflexivity|]. destruct Hh as [Hh|Hh]; [elim (hits_none _ _ _ Hh Hq Hr)|]. destruct (pcode r') as [| | | | | | | |[|] ? ?|[|] ? ? ?| | | | |]; try contradiction; exact I.
  - exact (s_cnt _ _ _ H).
  - intros i x Hi. rewrite Pr in Hi. destruct (Nat.eqb_spec i p) as [->|N].
    + injection Hi as <-. destruct (pcode r') as [| | | | | | | |[|] ? ?|[|] ? ? ?| | | | |]; try exact Hl; right; destruct Hl as (r0 & f & A & N & B & C);
        exists r0, f; (rewrite Pr; destruct (Nat.eqb_spec 0 p); [congruence|]; split; [exact A|]; split; [exact B|congruence]).
    + pose proof (s_loc _ _ _ H i x Hi) as L. rewrite Pr. destruct (pcode x) as [| | | | | | | |[|] ? ?|[|] ? ? ?| | | | |]; try exact L;
        (destruct (Nat.eqb_spec 0 p) as [E|N0]; [left; congruence|exact L]).
  - intros i x n Hi. rewrite Pr in Hi. destruct (Nat.eqb_spec i p) as [->|N]; [injection Hi as <-; apply Hb|exact (s_busy _ _ _ H i x n Hi)].
  - intros i x n Hi. rewrite Pr in Hi. destruct (Nat.eqb_spec i p) as [->|N]; [intros _ D; elim D; reflexivity|exact (s_idle _ _ _ H i x n Hi)].
  - intros l El. destruct (s_early _ _ _ H l El) as (A & (r0 & B1 & B2) & C). destruct (He l El) as [He1 He2]. split; [exact A|]. split.
    + rewrite Pr. destruct (Nat.eqb_spec 0 p) as [E|N]; [exists r'; auto|eauto].
    + intros i x n Hi. rewrite Pr in Hi. destruct (Nat.eqb_spec i p) as [->|N]; [injection Hi as <-; apply He2|exact (C i x n Hi)].
Qed.

(** The process is no longer the one that is being resumed. *)
Lemma Sem_release W W' p r S : Sem W (Some p) S -> proc_at p S = Some r ->
  (hits p S = 0 \/ soft_code (pcode r)) ->
  (p = 0 -> forall q x, proc_at q S = Some x -> chief (pcode x) -> exists f, pcode r = KProcPro f /\ ptarget r = pown x) ->
  (forall n, pcode r = KExtraAct n -> atrig n S = true -> dget (inter S) n = None \/ W' n) -> (forall n, W n -> W' n) ->
  Sem W' None S.
Proof.
  intros H Hp Hh H0 Hi HW. constructor; try apply H.
  - intros q i Hq Hr. destruct (s_hit _ _ _ H q i Hq Hr) as (x & A & B). exists x. split; [exact A|]. destruct (Nat.eq_dec i p) as [->|N].
    + assert (x = r) by congruence. subst x. destruct Hh as [Hh|Hh]; [elim (hits_none _ _ _ Hh Hq Hr)|]. destruct (pcode r) as [| | | | | | | |[|] ? ?|[|] ? ? ?| | | | |]; try contradiction; exact I.
    + destruct (pcode x) as [| | | | | | | |[|] ? ?|[|] ? ? ?| | | | |]; try exact B. cbn [hittable] in *. destruct B as [B|B]; [congruence|auto].
  - intros i x Hx. pose proof (s_loc _ _ _ H i x Hx) as L. pose proof (fun E => H0 E i x Hx) as D.
    destruct (pcode x) as [| | | | | | | |[|] ? ?|[|] ? ? ?| | | | |]; try exact L; right; (destruct L as [[= ->]|L]; [|exact L]; destruct (D eq_refl I) as (f & E1 & E2); exists r, f; auto).
  - intros i x n Hx Hc _ Ha. destruct (Nat.eq_dec i p) as [->|N].
    + apply Hi; [congruence|exact Ha].
    + destruct (s_idle _ _ _ H i x n Hx Hc) as [D|D]; auto. congruence.
Qed.

(** Interrupting a process. *)
Lemma keeps_added e S : keeps S (added e S).
Proof. intros ev x Hx. exists x. split; [apply at_added_old; exact Hx|reflexivity]. Qed.
Lemma keeps_queued prio d ev S : keeps S (queued prio d ev S).
Proof. intros i x Hx. exists x. auto. Qed.
Lemma keeps_trans S1 S2 S3 : keeps S1 S2 -> keeps S2 S3 -> keeps S1 S3.
Proof. intros A B ev e He. destruct (A _ _ He) as (e1 & H1 & R1). destruct (B _ _ H1) as (e2 & H2 & R2). exists e2. split; congruence. Qed.
Lemma keeps_changed ev e e' S : event_at ev S = Some e -> erole e' = erole e -> keeps S (changed ev e' S).
Proof. intros H R i x Hx. rewrite (at_changed _ _ _ _ _ H). destruct (Nat.eqb_spec i ev) as [->|N]; [exists e'; split; congruence|eauto]. Qed.
Lemma keeps_struck p S : keeps S (struck p S).
Proof. eapply keeps_trans; [apply keeps_added|apply keeps_queued]. Qed.
Lemma keeps_timed d S : keeps S (timed d S).
Proof. eapply keeps_trans; [apply keeps_added|apply keeps_queued]. Qed.
Lemma keeps_fired ev e S : event_at ev S = Some e -> keeps S (fired ev e S).
Proof. intros H. eapply keeps_trans; [apply (keeps_changed ev e (valued (Good XUnit) e)); [exact H|reflexivity]|apply keeps_queued]. Qed.
Lemma keeps_spawned c S : keeps S (spawned c S).
Proof. intros ev x Hx. exists x. split; [apply at_spawned_old; exact Hx|reflexivity]. Qed.
Lemma acts_old a S n ev : Que a S -> dget (acts S) n = Some ev -> exists e, event_at ev S = Some e /\ erole e = RAct.
Proof. intros H. exact (q_acts _ _ H n ev). Qed.
Lemma trig_added ev x e S : event_at ev S = Some x -> trig (added e S) ev = trig S ev.
Proof. intros H. unfold trig. rewrite H, (at_added_old _ _ _ _ H). reflexivity. Qed.
Lemma atrig_added a n e S : Que a S -> atrig n (added e S) = atrig n S.
Proof. intros H. unfold atrig. change (acts (added e S)) with (acts S). destruct (dget (acts S) n) as [ev|] eqn:E; [|reflexivity]. destruct (acts_old _ _ _ _ H E) as (x & Hx & _). apply (trig_added _ x). exact Hx. Qed.
Lemma atrig_queued n prio d ev S : atrig n (queued prio d ev S) = atrig n S. Proof. reflexivity. Qed.
Lemma atrig_spawned a n c S : Que a S -> atrig n (spawned c S) = atrig n S.
Proof.
  intros H. unfold atrig. change (acts (spawned c S)) with (acts S). destruct (dget (acts S) n) as [ev|] eqn:E; [|reflexivity]. destruct (acts_old _ _ _ _ H E) as (x & Hx & _).
  unfold trig. rewrite Hx, (at_spawned_old _ _ _ _ Hx). reflexivity.
Qed.
Lemma atrig_struck a n p S : Que a S -> atrig n (struck p S) = atrig n S. Proof. intros H. exact (atrig_added a n _ S H). Qed.
Lemma atrig_timed a n d S : Que a S -> atrig n (timed d S) = atrig n S. Proof. intros H. exact (atrig_added a n _ S H). Qed.
(** The event of one buffer. *)
Lemma atrig_changed n ev e e' S : event_at ev S = Some e -> dget (acts S) n <> Some ev -> atrig n (changed ev e' S) = atrig n S.
Proof.
  intros H N. unfold atrig. change (acts (changed ev e' S)) with (acts S). destruct (dget (acts S) n) as [i|]; [|reflexivity]. unfold trig. rewrite (at_changed _ _ _ _ _ H).
  destruct (Nat.eqb_spec i ev) as [->|M]; [congruence|reflexivity].
Qed.
Lemma atrig_same n ev e e' S : event_at ev S = Some e -> triggered e' = triggered e -> atrig n (changed ev e' S) = atrig n S.
Proof.
  intros H N. unfold atrig. change (acts (changed ev e' S)) with (acts S). destruct (dget (acts S) n) as [i|]; [|reflexivity]. unfold trig. rewrite (at_changed _ _ _ _ _ H).
  destruct (Nat.eqb_spec i ev) as [->|M]; [rewrite H; exact N|reflexivity].
Qed.
Lemma sound_added e S : (forall ev x, event_at ev S = Some x -> sound x) -> sound e -> forall ev x, event_at ev (added e S) = Some x -> sound x.
Proof. intros H He ev x Hx. rewrite at_added in Hx. destruct (Nat.eqb _ _); [injection Hx as <-; exact He|exact (H ev x Hx)]. Qed.
Lemma sound_changed ev e e' S : event_at ev S = Some e -> (forall i x, event_at i S = Some x -> sound x) -> sound e' -> forall i x, event_at i (changed ev e' S) = Some x -> sound x.
Proof. intros H He Hs i x Hx. rewrite (at_changed _ _ _ _ _ H) in Hx. destruct (Nat.eqb _ _); [injection Hx as <-; exact Hs|exact (He i x Hx)]. Qed.

Lemma Sem_struck W a p r S : Sem W a S -> Que a S -> proc_at p S = Some r ->
  (soft_code (pcode r) \/ exists n g q, pcode r = KLocal0 false n g /\ In q (heap S) /\ role_at (qev q) (RInit p) S) ->
  (forall n, dget (extras S) n = Some p -> hits p S + 1 <= cnt n S) -> Sem W a (struck p S).
Proof.
  intros H Q Hp Hs Hc. set (S' := struck p S). assert (K : keeps S S') by apply keeps_struck.
  assert (New : event_at (List.length (evs S)) S' = Some (MkEvt (RInt p) (Some (Bad TInterrupt)) true (Some [CInt p]))).
  { unfold S', struck. change (event_at _ (queued _ _ _ _)) with (event_at (List.length (evs S)) (added (MkEvt (RInt p) (Some (Bad TInterrupt)) true (Some [CInt p])) S)). rewrite at_added, Nat.eqb_refl. reflexivity. }
  constructor.
  - apply H.
  - exact (s_ext _ _ _ H).
  - apply (sound_added (MkEvt (RInt p) (Some (Bad TInterrupt)) true (Some [CInt p])) S (s_vals _ _ _ H)). right. split; [reflexivity|]. exists p. reflexivity.
  - intros q i Hq Hr. apply in_app_or in Hq. destruct Hq as [Hq|[<-|[]]].
    + destruct (Que_backed _ _ Q q Hq) as (e & He). destruct (s_hit _ _ _ H q i Hq (keeps_back _ _ _ _ _ K He Hr)) as (x & A & B). exists x. split; [exact A|].
      destruct (pcode x) as [| | | | | | | |[|] ? ?|[|] ? ? ?| | | | |]; try exact B. cbn [hittable] in *. destruct B as [B|(q' & C1 & C2 & C3)]; [auto|]. right. exists q'.
      split; [apply in_or_app; auto|]. split; [eapply keeps_role; eauto|exact C3].
    + destruct Hr as (e & He & R). cbn [qev] in He. rewrite New in He. injection He as <-. injection R as <-. exists r. split; [exact Hp|].
      destruct Hs as [Hs|(n & g & q & E & Iq & Rq)]; [destruct (pcode r) as [| | | | | | | |[|] ? ?|[|] ? ? ?| | | | |]; try contradiction; exact I|].
      rewrite E. right. exists q. split; [apply in_or_app; auto|]. split; [eapply keeps_role; eauto|]. cbn [qid]. destruct (q_heap _ _ Q q Iq) as (L & _). exact L.
  - intros n i Hi. rewrite (hits_snoc i S S' _ K (Que_backed _ _ Q) eq_refl). change (cnt n S') with (cnt n S). pose proof (s_cnt _ _ _ H n i Hi) as C.
    unfold is_int. cbn [qev]. rewrite New. cbn [erole]. destruct (Nat.eqb_spec p i) as [->|N]; [specialize (Hc n Hi)|]; lia.
  - exact (s_loc _ _ _ H).
  - intros i x n Hi Hb. unfold S'. rewrite (atrig_struck _ _ _ _ Q). exact (s_busy _ _ _ H i x n Hi Hb).
  - intros i x n Hi Hk Ha. unfold S'. rewrite (atrig_struck _ _ _ _ Q). exact (s_idle _ _ _ H i x n Hi Hk Ha).
  - intros l El. destruct (s_early _ _ _ H l El) as (A & B & C). split; [exact A|]. split; [exact B|]. intros i x n Hi. unfold S'. rewrite (atrig_struck _ _ _ _ Q). exact (C i x n Hi).
Qed.

(** Starting a process. *)
Lemma hits_spawned p c S : backed S -> hits p (spawned c S) = hits p S.
Proof.
  intros B. rewrite (hits_snoc p S (spawned c S) _ (keeps_spawned c S) B eq_refl). unfold is_int. cbn [qev]. rewrite at_spawned, Nat.eqb_refl. cbn. lia.
Qed.
Lemma Sem_spawned W a (b : bool) n g S : Sem W a S -> Que a S -> (if b then a = Some 0 else free tame g) -> Sem W a (spawned (KLocal0 b n g) S).
Proof.
  intros H Q Hg. set (c := KLocal0 b n g). set (S' := spawned c S). assert (K : keeps S S') by apply keeps_spawned.
  assert (Old : forall p r, proc_at p S = Some r -> proc_at p S' = Some r) by (intros; apply pat_spawned_old; assumption).
  assert (Pr : forall p r, proc_at p S' = Some r -> proc_at p S = Some r \/ (p = List.length (prs S) /\ pcode r = c)).
  { intros p r Hr. unfold S' in Hr. rewrite pat_spawned in Hr. destruct (Nat.eqb_spec p (List.length (prs S))) as [->|N]; [injection Hr as <-; auto|auto]. }
  assert (At : forall m, atrig m S' = atrig m S) by (intros m; eapply atrig_spawned; exact Q).
  constructor.
  - destruct (s_main _ _ _ H) as (r & A & B). exists r. auto.
  - intros m p Hp. destruct (s_ext _ _ _ H m p Hp) as (r & ev & A & B & C). exists r, ev. auto.
  - intros ev e He. unfold S' in He. rewrite at_spawned in He. destruct (Nat.eqb _ _); [injection He as <-; exact I|]. destruct (Nat.eqb _ _); [injection He as <-; exact I|]. exact (s_vals _ _ _ H ev e He).
  - intros q i Hq Hr. apply in_app_or in Hq. destruct Hq as [Hq|[<-|[]]].
    + destruct (Que_backed _ _ Q q Hq) as (e & He). destruct (s_hit _ _ _ H q i Hq (keeps_back _ _ _ _ _ K He Hr)) as (x & A & B). exists x. split; [auto|].
      destruct (pcode x) as [| | | | | | | |[|] ? ?|[|] ? ? ?| | | | |]; try exact B. cbn [hittable] in *. destruct B as [B|(q' & C1 & C2 & C3)]; [auto|]. right. exists q'.
      split; [apply in_or_app; auto|]. split; [eapply keeps_role; eauto|exact C3].
    + destruct Hr as (e & He & R). cbn [qev] in He. unfold S' in He. rewrite at_spawned, Nat.eqb_refl in He. injection He as <-. discriminate.
  - intros m p Hp. unfold S'. rewrite (hits_spawned _ _ _ (Que_backed _ _ Q)). exact (s_cnt _ _ _ H m p Hp).
  - intros p r Hr. destruct (Pr p r Hr) as [Hr'|[-> E]].
    + pose proof (s_loc _ _ _ H p r Hr') as L. destruct (pcode r) as [| | | | | | | |[|] ? ?|[|] ? ? ?| | | | |]; try exact L; (destruct L as [L|(r0 & f & A & B)]; [auto|right; exists r0, f; auto]).
    + rewrite E. unfold c. destruct b; auto.
  - intros p r m Hr Hb. rewrite At. destruct (Pr p r Hr) as [Hr'|[-> E]]; [exact (s_busy _ _ _ H p r m Hr' Hb)|]. rewrite E in Hb. contradiction.
  - intros p r m Hr Hk. rewrite At. destruct (Pr p r Hr) as [Hr'|[-> E]]; [exact (s_idle _ _ _ H p r m Hr' Hk)|]. rewrite E in Hk. discriminate.
  - intros l El. destruct (s_early _ _ _ H l El) as (A & (r0 & B1 & B2) & C). split; [exact A|]. split; [exists r0; auto|]. intros p r m Hr Hx. rewrite At.
    destruct (Pr p r Hr) as [Hr'|[-> E]]; [exact (C p r m Hr' Hx)|]. rewrite E in Hx. contradiction.
Qed.

(** ** Calls that have not been answered *)

(** The event of the buffer is processed before process 0 goes on. *)
Definition called (S : sim) (n : string) : Prop :=
  exists r0 k qa ev, proc_at 0 S = Some r0 /\ pcode r0 = KProcZero k /\ dget (acts S) n = Some ev /\ In qa (heap S) /\ qev qa = ev /\
    forall qm, In qm (heap S) -> qev qm = ptarget r0 -> (qtime qa <= qtime qm)%Z /\ qprio qa <= qprio qm /\ qid qa < qid qm.
Lemma called_gen a S S' new n : Que a S -> a <> Some 0 -> called S n -> proc_at 0 S' = proc_at 0 S -> dget (acts S') n = dget (acts S) n -> heap S' = heap S ++ new ->
  (forall q, In q new -> List.length (evs S) <= qev q \/ exists e, event_at (qev q) S = Some e /\ forall t, erole e <> RTime t) -> called S' n.
Proof.
  intros Q Ha (r0 & k & qa & ev & P0 & Ck & An & Iq & Eq & Mi) Pr Ac Hh Hn. exists r0, k, qa, ev. rewrite Pr, Ac, Hh. repeat split; auto.
  { apply in_or_app. auto. }
  all: apply in_app_or in H; destruct H as [H|H]; [apply (Mi qm H H0)|exfalso].
  all: destruct (q_wait _ _ Q 0 r0 P0 Ha) as (e & He & _ & Ai); [rewrite Ck; discriminate|]; rewrite Ck in Ai; cbn [aims] in Ai; destruct Ai as (t & R); rewrite <- H0 in He;
    destruct (Hn qm H) as [L|(e' & He' & N)]; [apply at_old in He; lia|apply (N t); congruence].
Qed.

(** ** Elementary changes, again *)

Section Changes.
Variables (W W' : string -> Prop) (a : option nat) (S : sim).
Hypothesis Q : Que a S.
Hypothesis H : Sem W a S.
Hypothesis WW : forall n, W n -> W' n.

Lemma idle_weaken p r n : proc_at p S = Some r -> pcode r = KExtraAct n -> a <> Some p -> atrig n S = true -> dget (inter S) n = None \/ W' n.
Proof. intros A B C D. destruct (s_idle _ _ _ H p r n A B C D); auto. Qed.
Lemma Sem_weaken : Sem W' a S.
Proof. constructor; try apply H. exact idle_weaken. Qed.
Lemma Sem_added e : sound e -> Sem W' a (added e S).
Proof.
  intros He. apply (Sem_gen W W' a S (added e S) [] H (Que_backed _ _ Q) (keeps_added e S)); auto.
  - right. split; [reflexivity|]. intros n. eapply atrig_added; exact Q.
  - intros n ev Hn. exists ev. exact Hn.
  - exact (s_cnt _ _ _ H).
  - exact (sound_added e S (s_vals _ _ _ H) He).
  - cbn. rewrite app_nil_r. reflexivity.
  - intros p r n _ _. rewrite (atrig_added a n e S Q). auto.
  - intros p r n. rewrite (atrig_added a n e S Q). apply idle_weaken.
Qed.
Lemma Sem_timed d : Sem W' a (timed d S).
Proof.
  set (e := MkEvt (RTime (now S + d)) (Some (Good XUnit)) false (Some [])).
  eapply (Sem_gen W W' a S (timed d S) _ H (Que_backed _ _ Q) (keeps_timed d S)); auto.
  - right. split; [reflexivity|]. intros n. eapply atrig_timed; exact Q.
  - intros n ev Hn. exists ev. exact Hn.
  - exact (s_cnt _ _ _ H).
  - exact (sound_added e S (s_vals _ _ _ H) I).
  - cbn. reflexivity.
  - intros q [<-|[]] p (x & Hx & R). cbn [qev] in Hx. change (event_at (List.length (evs S)) (added e S) = Some x) in Hx. rewrite at_added, Nat.eqb_refl in Hx. injection Hx as <-. discriminate.
  - intros p r n _ _. rewrite (atrig_timed a n d S Q). auto.
  - intros p r n. rewrite (atrig_timed a n d S Q). apply idle_weaken.
Qed.
Lemma atrig_fired n ev e : event_at ev S = Some e -> atrig n (fired ev e S) = true -> atrig n S = true \/ dget (acts S) n = Some ev.
Proof.
  intros He. unfold atrig. change (acts (fired ev e S)) with (acts S). destruct (dget (acts S) n) as [i|]; [|discriminate].
  unfold trig. change (event_at i (fired ev e S)) with (event_at i (changed ev (valued (Good XUnit) e) S)). rewrite (at_changed _ _ _ _ _ He). destruct (Nat.eqb_spec i ev) as [->|N]; auto.
Qed.
Lemma atrig_mono n ev e : event_at ev S = Some e -> atrig n S = true -> atrig n (fired ev e S) = true.
Proof.
  intros He. unfold atrig. change (acts (fired ev e S)) with (acts S). destruct (dget (acts S) n) as [i|]; [|discriminate].
  unfold trig. change (event_at i (fired ev e S)) with (event_at i (changed ev (valued (Good XUnit) e) S)). rewrite (at_changed _ _ _ _ _ He). destruct (Nat.eqb_spec i ev) as [->|N]; auto.
Qed.
Lemma Sem_fired ev e : event_at ev S = Some e -> erole e = RAct -> early S = None \/ (forall n, dget (acts S) n <> Some ev) ->
  (forall p r n, proc_at p S = Some r -> pcode r = KExtraAct n -> a <> Some p -> dget (acts S) n = Some ev -> dget (inter S) n = None \/ W' n) ->
  Sem W' a (fired ev e S).
Proof.
  intros He Hr Hea Hi. eapply (Sem_gen W W' a S (fired ev e S) _ H (Que_backed _ _ Q) (keeps_fired ev e S He)); auto.
  - destruct Hea as [Hea|Hea]; [left; exact Hea|right]. split; [reflexivity|]. intros n. exact (atrig_changed n ev e _ S He (Hea n)).
  - intros n i Hn. exists i. exact Hn.
  - exact (s_cnt _ _ _ H).
  - exact (sound_changed ev e (valued (Good XUnit) e) S He (s_vals _ _ _ H) I).
  - cbn. reflexivity.
  - intros q [<-|[]] p R. cbn [qev] in R. apply (keeps_back _ _ _ _ _ (keeps_fired ev e S He) He) in R. destruct R as (x & Hx & R). congruence.
  - intros p r n _ _. apply atrig_mono. exact He.
  - intros p r n Hp Hc Ha Ht. apply (atrig_fired n ev e He) in Ht. destruct Ht as [Ht|Ht]; [exact (idle_weaken p r n Hp Hc Ha Ht)|exact (Hi p r n Hp Hc Ha Ht)].
Qed.
(** Changes of an event that do not concern its value. *)
Lemma Sem_changed ev e e' : event_at ev S = Some e -> erole e' = erole e -> triggered e' = triggered e -> sound e' -> Sem W' a (changed ev e' S).
Proof.
  intros He Hr Ht Hs. eapply (Sem_gen W W' a S (changed ev e' S) [] H (Que_backed _ _ Q) (keeps_changed ev e e' S He Hr)); auto.
  - right. split; [reflexivity|]. intros n. apply (atrig_same n ev e); auto.
  - intros n i Hn. exists i. exact Hn.
  - exact (s_cnt _ _ _ H).
  - exact (sound_changed ev e e' S He (s_vals _ _ _ H) Hs).
  - cbn. rewrite app_nil_r. reflexivity.
  - intros p r n _ _. rewrite (atrig_same n ev e); auto.
  - intros p r n. rewrite (atrig_same n ev e); auto. apply idle_weaken.
Qed.
(** Giving an event that belongs to no buffer a value, and scheduling it. *)
Lemma Sem_ended ev e o : event_at ev S = Some e -> (forall p, erole e <> RInt p) -> (forall n, dget (acts S) n <> Some ev) -> sound (valued o e) ->
  Sem W' a (queued NORMAL 0 ev (changed ev (valued o e) S)).
Proof.
  intros He Hr Hn Hs. set (S' := queued _ _ _ _). assert (K : keeps S S') by exact (keeps_changed ev e (valued o e) S He eq_refl).
  assert (At : forall n, atrig n S' = atrig n S) by (intros n; exact (atrig_changed n ev e _ S He (Hn n))).
  eapply (Sem_gen W W' a S S' _ H (Que_backed _ _ Q) K); auto.
  - intros n i Hi. exists i. exact Hi.
  - exact (s_cnt _ _ _ H).
  - exact (sound_changed ev e (valued o e) S He (s_vals _ _ _ H) Hs).
  - cbn. reflexivity.
  - intros q [<-|[]] p R. cbn [qev] in R. apply (keeps_back _ _ _ _ _ K He) in R. destruct R as (x & Hx & R). apply (Hr p). congruence.
  - intros p r n _ _. rewrite At. auto.
  - intros p r n. rewrite At. apply idle_weaken.
Qed.
(** Changes of the model that keep the list of processes, and of other fields. *)
Lemma Sem_rest S' : now S' = now S -> evs S' = evs S -> heap S' = heap S -> prs S' = prs S -> extras S' = extras S -> acts S' = acts S ->
  early S' = None \/ early S' = early S -> (forall n p, dget (extras S) n = Some p -> hits p S <= cnt n S') ->
  (forall p r n, proc_at p S = Some r -> pcode r = KExtraAct n -> a <> Some p -> atrig n S = true -> dget (inter S') n = None \/ W' n) ->
  Sem W' a S'.
Proof.
  intros En Ee Eh Ep Ex Ea Er Hc Hi.
  assert (K : keeps S S') by (intros ev e He; exists e; unfold event_at in *; rewrite Ee; auto).
  assert (At : forall n, atrig n S' = atrig n S) by (intros n; unfold atrig, trig, event_at; rewrite Ea, Ee; reflexivity).
  apply (Sem_gen W W' a S S' [] H (Que_backed _ _ Q) K); auto.
  - destruct Er as [Er|Er]; auto.
  - intros n ev Hn. exists ev. rewrite Ea. exact Hn.
  - intros ev e He. apply (s_vals _ _ _ H ev e). unfold event_at in *. rewrite <- Ee. exact He.
  - rewrite app_nil_r. exact Eh.
  - intros p r n _ _. rewrite At. auto.
  - intros p r n. rewrite At. apply Hi.
Qed.
End Changes.

(** ** The rules and the processes that they start *)

(** Buffers whose process waits and has not been called. *)
Definition tight (a : option nat) (n : string) (S : sim) : Prop :=
  exists p r, proc_at p S = Some r /\ (pcode r = KExtra0 n \/ (pcode r = KExtraAct n /\ a <> Some p /\ atrig n S = false)).
Definition flow (a : option nat) (S : sim) (g : gen) : Prop :=
  exists c b, (c = true -> In PProc (sprocs (ss S))) /\ (forall s2, mannered s2 -> (c = true -> In PProc (sprocs s2)) -> modest g c b s2) /\
    forall n, tight a n S -> cnt n S <= 1 /\ (b n -> cnt n S = 0).
Definition over (a : option nat) (S : sim) : Prop :=
  (In PProc (sprocs (ss S)) /\ forall n, tight a n S -> cnt n S <= 1) \/ (forall n, tight a n S -> cnt n S = 0).
Definition Phase (a : option nat) (S : sim) : Prop :=
  exists r0, proc_at 0 S = Some r0 /\
    match pcode r0 with
    | KProcPro _ => exists pro r, proc_at pro S = Some r /\ pown r = ptarget r0 /\
        match pcode r with
        | KLocal0 true _ g | KLocal true _ _ g => flow a S g
        | KEnd => (exists e x, event_at (pown r) S = Some e /\ evalue e = Some (Bad (TExn x))) \/ over a S
        | _ => False
        end
    | _ => forall n, tight a n S -> cnt n S = 0
    end.
Definition holds (S S' : sim) : Prop := forall ev e, event_at ev S = Some e -> evalue e <> None -> exists e', event_at ev S' = Some e' /\ evalue e' = evalue e.
Lemma Phase_gen a a' S S' : Phase a S -> proc_at 0 S' = proc_at 0 S ->
  (forall pro r, proc_at pro S = Some r -> pcode r = KEnd \/ chief (pcode r) -> proc_at pro S' = Some r) -> holds S S' ->
  (In PProc (sprocs (ss S)) -> In PProc (sprocs (ss S'))) ->
  (forall n, tight a' n S' -> cnt n S' = 0 \/ (tight a n S /\ cnt n S' <= cnt n S)) -> Phase a' S'.
Proof.
  intros (r0 & P0 & Ph) E0 Pp Hv Hp Ht. exists r0. split; [congruence|].
  assert (Z : (forall n, tight a n S -> cnt n S = 0) -> forall n, tight a' n S' -> cnt n S' = 0).
  { intros Z n Tn. destruct (Ht n Tn) as [C|[C D]]; [exact C|]. specialize (Z n C). lia. }
  assert (F : forall g, flow a S g -> flow a' S' g).
  { intros g (c & b & A & B & C). exists c, b. split; [auto|]. split; [exact B|]. intros n Tn. destruct (Ht n Tn) as [D|[D E]]; [lia|]. destruct (C n D) as [C1 C2]. split; [lia|]. intros Bn. specialize (C2 Bn). lia. }
  destruct (pcode r0) as [|f| | | | | | |? ? ?|? ? ? ?| | | | |]; try exact (Z Ph).
  destruct Ph as (pro & r & A & B & C). exists pro, r. split; [apply Pp; [exact A|]|].
  { destruct (pcode r) as [| | | | | | | |[|] ? ?|[|] ? ? ?| | | | |]; try contradiction; cbn; auto. }
  split; [exact B|]. destruct (pcode r) as [| | | | | | | |[|] ? ?|[|] ? ? ?| | | | |]; try contradiction; auto.
  destruct C as [(e & x & C1 & C2)|C]; [left|right].
  - destruct (Hv _ _ C1) as (e' & D1 & D2); [congruence|]. exists e', x. split; [exact D1|congruence].
  - destruct C as [[C1 C2]|C]; [left|right; exact (Z C)]. split; [auto|]. intros n Tn. destruct (Ht n Tn) as [D|[D E]]; [lia|]. specialize (C2 n D). lia.
Qed.
(** Changes that do not concern this. *)
Lemma Phase_easy a S S' : Phase a S -> (forall p r, proc_at p S = Some r -> proc_at p S' = Some r) ->
  (forall p r, proc_at p S' = Some r -> proc_at p S = Some r \/ exists b n g, pcode r = KLocal0 b n g) -> holds S S' -> sprocs (ss S') = sprocs (ss S) ->
  (forall n, atrig n S' = false -> atrig n S = false) -> Phase a S'.
Proof.
  intros Ph Old Pr Hv Es Ha. apply (Phase_gen a a S S' Ph); auto.
  - destruct Ph as (r0 & P0 & _). rewrite P0. apply Old. exact P0.
  - rewrite Es. auto.
  - intros n (p & r & Hp & Hc). right. unfold cnt. rewrite Es. split; [|lia]. destruct (Pr p r Hp) as [Hp'|(b & m & g & E)].
    + exists p, r. split; [exact Hp'|]. destruct Hc as [Hc|(C1 & C2 & C3)]; auto.
    + destruct Hc as [Hc|(C1 & _)]; congruence.
Qed.
Lemma holds_refl S S' : evs S' = evs S -> holds S S'. Proof. intros E ev e He _. exists e. unfold event_at in *. rewrite E. auto. Qed.
Lemma holds_trans S1 S2 S3 : holds S1 S2 -> holds S2 S3 -> holds S1 S3.
Proof. intros A B ev e He Hv. destruct (A _ _ He Hv) as (e1 & H1 & V1). destruct (B _ _ H1) as (e2 & H2 & V2); [congruence|]. exists e2. split; congruence. Qed.
Lemma holds_added e S : holds S (added e S). Proof. intros ev x Hx _. exists x. split; [apply at_added_old; exact Hx|reflexivity]. Qed.
Lemma holds_spawned c S : holds S (spawned c S). Proof. intros ev x Hx _. exists x. split; [apply at_spawned_old; exact Hx|reflexivity]. Qed.
Lemma holds_changed ev e e' S : event_at ev S = Some e -> evalue e' = evalue e \/ evalue e = None -> holds S (changed ev e' S).
Proof.
  intros He Hv i x Hx Nx. rewrite (at_changed _ _ _ _ _ He). destruct (Nat.eqb_spec i ev) as [->|N]; [|eauto]. assert (x = e) by congruence. subst x. exists e'. split; [reflexivity|]. destruct Hv; congruence.
Qed.

(** ** What a process may be resumed with *)

Definition nochief (S : sim) : Prop := forall q r, proc_at q S = Some r -> ~ chief (pcode r).
Definition Act (p : nat) (c : code) (o : outcome) (S : sim) : Prop :=
  match o with
  | Bad (TExn _) => True
  | Bad TInterrupt => match c with KExtraPro n _ | KExtraCont n _ => hits p S + 1 <= cnt n S | KLocal false _ _ _ => True | _ => False end
  | Bad TRuntime => False
  | Good v =>
      match c with
      | KProc0 | KProcAct | KProcZero _ => nochief S /\ forall n, tight (Some p) n S -> cnt n S = 0
      | KProcPro _ => nochief S /\ calm S /\ over (Some p) S
      | KExtraPro _ _ => hits p S = 0 /\ forall g, v = XCont g -> free tame g
      | KExtraCont _ _ => hits p S = 0
      | KExtraAct _ => early S = None
      | KLocal0 true _ g | KLocal true _ _ g => flow (Some p) S g
      | KEnd | KEnv0 _ | KEnvWait _ _ | KEnvP0 _ | KEnvP _ => False
      | _ => True
      end
  end.
Definition Todo (a : option nat) (S : sim) : Prop :=
  match todo S with
  | [] => a = None
  | [WEnd _] => a = None
  | [WCb ev (CResume p); WEnd _] => a = Some p /\ exists r e o, proc_at p S = Some r /\ event_at ev S = Some e /\ evalue e = Some o /\ pcode r <> KEnd /\ Act p (pcode r) o S
  | [WCb ev (CInt p); WEnd _] => a = None /\ exists r, proc_at p S = Some r /\
      (pcode r = KEnd \/ (exists n, busy n (pcode r) /\ hits p S + 1 <= cnt n S) \/ exists n e g, pcode r = KLocal false n e g)
  | [WRun p o; WEnd _] => a = Some p /\ exists r, proc_at p S = Some r /\ pcode r <> KEnd /\ Act p (pcode r) o S
  | _ => False
  end.
(** The process that has been resumed is process 0 or the one of the rules. *)
Definition ruling (a : option nat) (S : sim) : Prop := a = Some 0 \/ exists p r, a = Some p /\ proc_at p S = Some r /\ chief (pcode r).
Record Ok (S : sim) : Prop := MkOk {
  o_dead : dead S = None;
  o_env : hasenv S = false;
  o_all : exists a, Que a S /\ Sem (fun n => a <> Some 0 /\ called S n) a S /\ (ruling a S \/ Phase a S) /\ Todo a S }.
