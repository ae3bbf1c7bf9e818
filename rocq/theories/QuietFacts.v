(** Simulations without environment: how much is still to be done at the present moment. *)
From Coq Require Import Lia Sorted.
From Verif Require Import Base BaseFacts Chunks DecMem Buffers BufferFacts Productions ProdSpec LearnFacts Sim SimSpec SimFacts RunFacts LiftFacts SafeSpec RequestFacts QuietGens QueueFacts SafeFacts SafeSteps SafeMain FailFacts SafeRuns BrokenFacts.
Local Open Scope string_scope.
Local Open Scope list_scope.
Local Open Scope nat_scope.

(** ** What a process changes while it runs *)

(** Events are in the queue once. *)
Definition Uniq (S : sim) : Prop := NoDup (map qev (heap S)) /\ forall q, In q (heap S) -> exists e, event_at (qev q) S = Some e /\ evalue e <> None.
Lemma Uniq_snoc S S' q : Uniq S -> heap S' = heap S ++ [q] -> (forall ev e, event_at ev S = Some e -> evalue e <> None -> exists e', event_at ev S' = Some e' /\ evalue e' <> None) ->
  (exists e, event_at (qev q) S' = Some e /\ evalue e <> None) -> (forall e, event_at (qev q) S = Some e -> evalue e = None) -> Uniq S'.
Proof.
  intros [A B] Eh Ev Eq Hn. split.
  - rewrite Eh, map_app. cbn [map]. apply NoDup_Add with (a := qev q) (l := map qev (heap S)); [rewrite <- (app_nil_r (map qev (heap S))) at 1; apply Add_app|]. split; [exact A|].
    intros X. apply in_map_iff in X. destruct X as (x & Ex & Hx). destruct (B x Hx) as (e & He & Ve). rewrite Ex in He. exact (Ve (Hn e He)).
  - intros x Hx. rewrite Eh in Hx. apply in_app_or in Hx. destruct Hx as [Hx|[<-|[]]]; [|exact Eq]. destruct (B x Hx) as (e & He & Ve). exact (Ev _ _ He Ve).
Qed.
Lemma Uniq_same S S' : Uniq S -> heap S' = heap S -> (forall ev e, event_at ev S = Some e -> evalue e <> None -> exists e', event_at ev S' = Some e' /\ evalue e' <> None) -> Uniq S'.
Proof. intros [A B] Eh Ev. split; rewrite Eh; [exact A|]. intros q Hq. destruct (B q Hq) as (e & He & Ve). exact (Ev _ _ He Ve). Qed.
Lemma map_inj {A B} (f : A -> B) l x y : NoDup (map f l) -> In x l -> In y l -> f x = f y -> x = y.
Proof.
  induction l as [|z l IH]; cbn [map]; intros N Hx Hy E; [contradiction|]. inversion N as [|? ? N1 N2]. subst. destruct Hx as [->|Hx], Hy as [->|Hy]; auto.
  - elim N1. rewrite E. apply in_map. exact Hy.
  - elim N1. rewrite <- E. apply in_map. exact Hx.
Qed.
Lemma uniq_one S q q' : Uniq S -> In q (heap S) -> In q' (heap S) -> qev q = qev q' -> q = q'.
Proof. intros [A _] H1 H2 E. exact (map_inj qev _ _ _ A H1 H2 E). Qed.

Record Mv (p : nat) (S S' : sim) : Prop := MkMv {
  v_now : now S' = now S;
  v_ext : extras S' = extras S;
  v_eid : eid S <= eid S';
  v_heap : exists new, heap S' = heap S ++ new /\ forall q, In q new -> eid S <= qid q /\
             (exists e', event_at (qev q) S' = Some e' /\ ((forall t, erole e' <> RTime t) -> qtime q = now S)) /\
             (forall e, event_at (qev q) S = Some e -> evalue e = None);
  v_evs : forall ev e, event_at ev S = Some e -> exists e', event_at ev S' = Some e' /\ erole e' = erole e /\ (ecbs e = None <-> ecbs e' = None) /\
             (evalue e' = evalue e \/ (evalue e = None /\ exists q, In q (heap S') /\ qev q = ev));
  v_born : forall ev e', event_at ev S' = Some e' -> event_at ev S = None ->
             (evalue e' <> None -> exists q, In q (heap S') /\ qev q = ev) /\ (forall t, erole e' = RTime t -> evalue e' <> None);
  v_prs : forall i r, i <> p -> proc_at i S = Some r -> proc_at i S' = Some r;
  v_uniq : Uniq S -> Uniq S' }.

Lemma Mv_in p S S' q : Mv p S S' -> In q (heap S) -> In q (heap S').
Proof. intros M H. destruct (v_heap _ _ _ M) as (new & -> & _). apply in_or_app. left. exact H. Qed.
Lemma Mv_same p S S' : now S' = now S -> extras S' = extras S -> eid S' = eid S -> heap S' = heap S -> evs S' = evs S -> prs S' = prs S -> Mv p S S'.
Proof.
  intros A B C D E F. assert (Ev : forall i, event_at i S' = event_at i S) by (intros i; unfold event_at; rewrite E; reflexivity). constructor; auto.
  - rewrite C. lia.
  - exists []. rewrite app_nil_r. split; [exact D|]. intros q [].
  - intros ev e He. exists e. rewrite Ev. split; [exact He|]. split; [reflexivity|]. split; [reflexivity|left; reflexivity].
  - intros ev e He Hn. rewrite Ev in He. congruence.
  - intros i r _ Hr. unfold proc_at in *. rewrite F. exact Hr.
  - intros U. apply (Uniq_same S); auto. intros ev e He Ve. exists e. rewrite Ev. auto.
Qed.
Lemma Mv_trans p S1 S2 S3 : Mv p S1 S2 -> Mv p S2 S3 -> Mv p S1 S3.
Proof.
  intros A B. constructor.
  - rewrite (v_now _ _ _ B). apply A.
  - rewrite (v_ext _ _ _ B). apply A.
  - pose proof (v_eid _ _ _ A). pose proof (v_eid _ _ _ B). lia.
  - destruct (v_heap _ _ _ A) as (n1 & E1 & H1), (v_heap _ _ _ B) as (n2 & E2 & H2). exists (n1 ++ n2). split; [rewrite E2, E1, app_assoc; reflexivity|].
    intros q Hq. apply in_app_or in Hq. destruct Hq as [Hq|Hq].
    + destruct (H1 q Hq) as (L & (e' & X1 & X2) & Y). split; [exact L|]. split; [|exact Y]. destruct (v_evs _ _ _ B _ _ X1) as (e2 & Z1 & Z2 & _). exists e2. split; [exact Z1|]. rewrite Z2. exact X2.
    + destruct (H2 q Hq) as (L & (e' & X1 & X2) & Y). pose proof (v_eid _ _ _ A). split; [lia|]. split; [exists e'; split; [exact X1|]; rewrite <- (v_now _ _ _ A); exact X2|].
      intros e He. destruct (v_evs _ _ _ A _ _ He) as (e2 & Z1 & _ & _ & Z2). specialize (Y _ Z1). destruct Z2 as [Z2|[Z2 _]]; congruence.
  - intros ev e He. destruct (v_evs _ _ _ A _ _ He) as (e2 & X1 & X2 & X3 & X4). destruct (v_evs _ _ _ B _ _ X1) as (e3 & Y1 & Y2 & Y3 & Y4). exists e3. split; [exact Y1|]. split; [congruence|].
    split; [rewrite X3; exact Y3|]. destruct Y4 as [Y4|[Y4 Y5]]; [|destruct X4 as [X4|[X4 X5]]].
    + destruct X4 as [X4|[X4 (q & X5 & X6)]]; [left; congruence|right]. split; [exact X4|]. exists q. split; [exact (Mv_in _ _ _ _ B X5)|exact X6].
    + right. split; [congruence|exact Y5].
    + right. split; [exact X4|exact Y5].
  - intros ev e3 He Hn. destruct (event_at ev S2) as [e2|] eqn:E2; [|exact (v_born _ _ _ B _ _ He E2)].
    destruct (v_born _ _ _ A _ _ E2 Hn) as [X1 X2]. destruct (v_evs _ _ _ B _ _ E2) as (e3' & Y1 & Y2 & _ & Y3). assert (e3' = e3) by congruence. subst e3'. split.
    + intros Hv. destruct Y3 as [Y3|[_ Y3]]; [|exact Y3]. rewrite Y3 in Hv. destruct (X1 Hv) as (q & Z1 & Z2). exists q. split; [exact (Mv_in _ _ _ _ B Z1)|exact Z2].
    + intros t Ht. destruct Y3 as [Y3|[Y3 _]]; [rewrite Y3|]; [|elim (X2 t); congruence]. apply (X2 t). congruence.
  - intros i r N Hr. apply (v_prs _ _ _ B i r N). apply (v_prs _ _ _ A i r N). exact Hr.
  - intros U. apply (v_uniq _ _ _ B), (v_uniq _ _ _ A), U.
Qed.
Lemma Mv_changed p ev e e' S : event_at ev S = Some e -> erole e' = erole e -> evalue e' = evalue e -> (ecbs e = None <-> ecbs e' = None) -> Mv p S (changed ev e' S).
Proof.
  intros He A B C. constructor; try reflexivity.
  - exists []. rewrite app_nil_r. split; [reflexivity|]. intros q [].
  - intros i x Hx. rewrite (at_changed _ _ _ _ _ He). destruct (Nat.eqb_spec i ev) as [->|N].
    + assert (x = e) by congruence. subst x. exists e'. split; [reflexivity|]. split; [exact A|]. split; [exact C|left; exact B].
    + exists x. split; [exact Hx|]. split; [reflexivity|]. split; [reflexivity|left; reflexivity].
  - intros i x Hx Hn. rewrite (at_changed _ _ _ _ _ He) in Hx. destruct (Nat.eqb_spec i ev) as [->|N]; congruence.
  - intros i r _ Hr. exact Hr.
  - intros U. apply (Uniq_same S); auto. intros i x Hx Vx. rewrite (at_changed _ _ _ _ _ He). destruct (Nat.eqb_spec i ev) as [->|N]; [exists e'; split; [reflexivity|congruence]|eauto].
Qed.
(** An event gets a value and is put into the queue. *)
Lemma Mv_valued p ev e o S : event_at ev S = Some e -> evalue e = None -> (forall t, erole e <> RTime t) -> Mv p S (queued NORMAL 0 ev (changed ev (valued o e) S)).
Proof.
  intros He Hv Hr. set (S' := queued _ _ _ _). assert (Ev : forall i, event_at i S' = if Nat.eqb i ev then Some (valued o e) else event_at i S) by (intros i; exact (at_changed i ev (valued o e) e S He)).
  assert (I0 : In (MkQ (now S + 0) NORMAL (eid S) ev) (heap S')) by (apply in_or_app; right; left; reflexivity).
  constructor; try reflexivity.
  - unfold S'. cbn. lia.
  - eexists. split; [reflexivity|]. intros q [<-|[]]. cbn [qid qev qtime]. split; [cbn; lia|]. split.
    + exists (valued o e). rewrite Ev, Nat.eqb_refl. split; [reflexivity|]. intros _. cbn. lia.
    + intros x Hx. congruence.
  - intros i x Hx. rewrite Ev. destruct (Nat.eqb_spec i ev) as [->|N].
    + assert (x = e) by congruence. subst x. exists (valued o e). split; [reflexivity|]. split; [reflexivity|]. split; [reflexivity|right]. split; [exact Hv|]. eexists. split; [exact I0|reflexivity].
    + exists x. split; [exact Hx|]. split; [reflexivity|]. split; [reflexivity|left; reflexivity].
  - intros i x Hx Hn. rewrite Ev in Hx. destruct (Nat.eqb_spec i ev) as [->|N]; congruence.
  - intros i r _ Hr'. exact Hr'.
  - intros U. apply (Uniq_snoc S S' (MkQ (now S + 0) NORMAL (eid S) ev) U eq_refl); cbn [qev].
    + intros i x Hx Vx. rewrite Ev. destruct (Nat.eqb_spec i ev) as [->|N]; [exists (valued o e); split; [reflexivity|discriminate]|eauto].
    + exists (valued o e). rewrite Ev, Nat.eqb_refl. split; [reflexivity|discriminate].
    + intros x Hx. congruence.
Qed.
Lemma Mv_fired p ev e S : event_at ev S = Some e -> evalue e = None -> erole e = RAct -> Mv p S (fired ev e S).
Proof. intros A B C. apply Mv_valued; auto. rewrite C. discriminate. Qed.
Lemma Mv_added p e S : evalue e = None -> (forall t, erole e <> RTime t) -> Mv p S (added e S).
Proof.
  intros Hv Hr. constructor; try reflexivity.
  - exists []. rewrite app_nil_r. split; [reflexivity|]. intros q [].
  - intros i x Hx. exists x. split; [apply at_added_old; exact Hx|]. split; [reflexivity|]. split; [reflexivity|left; reflexivity].
  - intros i x Hx Hn. rewrite at_added in Hx. destruct (Nat.eqb i (List.length (evs S))); [|congruence]. injection Hx as <-. split; [congruence|]. intros t E. elim (Hr t E).
  - intros i r _ H. exact H.
  - intros U. apply (Uniq_same S); auto. intros i x Hx Vx. exists x. split; [apply at_added_old; exact Hx|exact Vx].
Qed.
(** A new event in the queue. *)
Lemma Mv_queued p e prio d S : evalue e <> None -> ((forall t, erole e <> RTime t) -> d = 0%Z) -> Mv p S (queued prio d (List.length (evs S)) (added e S)).
Proof.
  intros Hv Hd. set (S' := queued _ _ _ _). assert (Ev : forall i, event_at i S' = if Nat.eqb i (List.length (evs S)) then Some e else event_at i S) by (intros i; exact (at_added i e S)).
  assert (I0 : In (MkQ (now S + d) prio (eid S) (List.length (evs S))) (heap S')) by (apply in_or_app; right; left; reflexivity).
  constructor; try reflexivity.
  - unfold S'. cbn. lia.
  - eexists. split; [reflexivity|]. intros q [<-|[]]. cbn [qid qev qtime]. split; [cbn; lia|]. split.
    + exists e. rewrite Ev, Nat.eqb_refl. split; [reflexivity|]. intros R. rewrite (Hd R). cbn. lia.
    + intros x Hx. apply at_old in Hx. lia.
  - intros i x Hx. exists x. split; [exact (at_added_old _ _ _ _ Hx)|]. split; [reflexivity|]. split; [reflexivity|left; reflexivity].
  - intros i x Hx Hn. rewrite Ev in Hx. destruct (Nat.eqb_spec i (List.length (evs S))) as [->|N]; [|congruence]. injection Hx as <-. split; [|intros _ _; exact Hv]. intros _. eexists. split; [exact I0|reflexivity].
  - intros i r _ H. exact H.
  - intros U. apply (Uniq_snoc S S' (MkQ (now S + d) prio (eid S) (List.length (evs S))) U eq_refl); cbn [qev].
    + intros i x Hx Vx. exists x. split; [exact (at_added_old _ _ _ _ Hx)|exact Vx].
    + exists e. rewrite Ev, Nat.eqb_refl. auto.
    + intros x Hx. apply at_old in Hx. lia.
Qed.
Lemma Mv_timed p d S : Mv p S (timed d S).
Proof. apply Mv_queued; [discriminate|]. intros H. elim (H (now S + d)%Z). reflexivity. Qed.
Lemma Mv_struck p i S : Mv p S (struck i S).
Proof. apply Mv_queued; [discriminate|]. reflexivity. Qed.
Lemma Mv_spawned p c S : Mv p S (spawned c S).
Proof.
  set (e1 := MkEvt (ROwn (List.length (prs S))) None false (Some [])). set (e2 := MkEvt (RInit (List.length (prs S))) (Some (Good XUnit)) false (Some [CResume (List.length (prs S))])).
  assert (A : Mv p S (added e1 S)) by (apply Mv_added; [reflexivity|discriminate]).
  assert (B : Mv p (added e1 S) (queued URGENT 0 (List.length (evs (added e1 S))) (added e2 (added e1 S)))) by (apply Mv_queued; [discriminate|reflexivity]).
  pose proof (Mv_trans _ _ _ _ A B) as M. assert (L : List.length (evs (added e1 S)) = Datatypes.S (List.length (evs S))) by (cbn; rewrite app_length; cbn; lia).
  rewrite L in M. destruct M as [M1 M2 M3 M4 M5 M6 M7 M8]. constructor; try assumption. intros i r _ Hr. apply pat_spawned_old. exact Hr.
Qed.
Lemma Mv_prs p r r' S : proc_at p S = Some r -> Mv p S (set_prs (upd (prs S) p r') S).
Proof.
  intros Hp. pose proof (Mv_same p S S eq_refl eq_refl eq_refl eq_refl eq_refl eq_refl) as [M1 M2 M3 M4 M5 M6 M7 M8]. constructor; try assumption.
  intros i x N Hx. rewrite (pat_upd i p r' r S Hp). destruct (Nat.eqb_spec i p); [contradiction|exact Hx].
Qed.
Lemma Mv_parked p r c ev e S : proc_at p S = Some r -> event_at ev S = Some e -> ecbs e = Some [] -> Mv p S (parked p r c ev e S).
Proof.
  intros Hp He Hc. eapply Mv_trans; [apply (Mv_changed p ev e (MkEvt (erole e) (evalue e) (edefused e) (Some [CResume p])) S He); [reflexivity|reflexivity|rewrite Hc; cbn; split; discriminate]|].
  exact (Mv_prs p r (MkPrc (pkind r) (pown r) ev c) (changed ev (MkEvt (erole e) (evalue e) (edefused e) (Some [CResume p])) S) Hp).
Qed.
Lemma Mv_finished p r o e S : proc_at p S = Some r -> event_at (pown r) S = Some e -> evalue e = None -> (forall t, erole e <> RTime t) -> Mv p S (finished p r o e S).
Proof.
  intros Hp He Hv Hr. eapply Mv_trans; [apply (Mv_prs p r (MkPrc (pkind r) (pown r) (ptarget r) KEnd)); exact Hp|]. apply Mv_valued; auto.
Qed.

(** ** What is left to do at this moment *)

(** The process of the rules decides after this many rounds: [None], nobody knows; a round, or a round and the
    entry of the queue that ends it. *)
Definition limit := option (nat * option qent).
(** The entry [q], and after it [w] rounds, come before. *)
Definition room (L : limit) (S : sim) (q : qent) (w : nat) : Prop :=
  match L with
  | None => True
  | Some (k, None) => qtime q = now S -> w < k
  | Some (k, Some qm) => qtime q = now S -> w < k \/ (w = k /\ qprio q = NORMAL /\ qid q < qid qm)
  end.
Lemma room_le L S q w w' : room L S q w -> w' <= w -> room L S q w'.
Proof. intros H Hw. destruct L as [[k [qm|]]|]; [| |exact I]; intros E; specialize (H E); lia. Qed.
Lemma room_later L S q w : qtime q <> now S -> room L S q w.
Proof. intros N. destruct L as [[k [qm|]]|]; [| |exact I]; intros E; contradiction. Qed.
(** Something that follows [q]. *)
Lemma room_next L S S' q q' w w' : room L S q w -> qtime q = now S -> w' < w -> room L S' q' w'.
Proof. intros H E L'. destruct L as [[k [qm|]]|]; [| |exact I]; intros _; specialize (H E); lia. Qed.

(** The process [pro] ends at this moment. *)
Definition Soon (S : sim) (pro : nat) : Prop :=
  exists r, proc_at pro S = Some r /\
    match pcode r with
    | KLocal0 false _ g => instant (now S) g
    | KLocal false _ e g => etime e = now S /\ instant (now S) g
    | KEnd => exists e, event_at (pown r) S = Some e /\ evalue e <> None /\ forall g, evalue e <> Some (Good (XCont g))
    | _ => False
    end.
Definition Load (L : limit) (S : sim) (r : prc) : Prop :=
  match pcode r with
  | KLocal false _ e g =>
      (unknown e = false -> eproc e <> PROCEDURAL) /\
      exists k, k <= 5 /\ lasts (etime e) k (unknown e) g /\ forall q, In q (heap S) -> qev q = ptarget r -> room L S q (1 + k)
  | KLocal0 false _ g => exists k, k <= 5 /\ lasts (now S) k false g /\ forall q, In q (heap S) -> qev q = ptarget r -> room L S q k
  | KExtraPro n pro =>
      (dget (inter S) n = None -> Soon S pro) /\
      forall q, In q (heap S) -> qev q = ptarget r ->
        room L S q 1 /\ forall e g, event_at (ptarget r) S = Some e -> evalue e = Some (Good (XCont g)) -> exists k, k <= 4 /\ lasts (now S) k false g /\ room L S q (1 + k)
  | KExtraCont n pro => dget (inter S) n <> None /\ forall q, In q (heap S) -> qev q = ptarget r -> room L S q 1
  | _ => True
  end.

Record Gen (L : limit) (a : option nat) (S : sim) : Prop := MkGen {
  g_load : forall p r, proc_at p S = Some r -> a <> Some p -> Load L S r;
  g_acts : forall n ev q, dget (acts S) n = Some ev -> In q (heap S) -> qev q = ev -> room L S q 1;
  g_full : forall ev e, event_at ev S = Some e -> evalue e <> None -> ecbs e <> None -> exists q, In q (heap S) /\ qev q = ev;
  g_time : forall ev e t, event_at ev S = Some e -> erole e = RTime t -> evalue e <> None;
  g_fresh : forall q e, In q (heap S) -> event_at (qev q) S = Some e -> (forall t, erole e <> RTime t) -> qtime q = now S;
  g_proc : dget (extras S) PROCEDURAL = None;
  g_ext : forall n ev, dget (acts S) n = Some ev -> dget (extras S) n <> None;
  g_list : forall pr, In pr (sprocs (ss S)) -> pr = PProc \/ exists id n m i c bs t, pr = PReq id n m i c bs t /\ queues m = true /\ id < snext (ss S);
  g_inter : forall n id, dget (inter S) n = Some id -> id < snext (ss S);
  g_uniq : Uniq S }.

Lemma Soon_move p S S' pro : Mv p S S' -> Soon S pro -> pro <> p -> Soon S' pro.
Proof.
  intros M (r & Hr & H) N. exists r. split; [exact (v_prs _ _ _ M _ _ N Hr)|]. rewrite (v_now _ _ _ M). destruct (pcode r) as [| | | | | | | |[|] ? ?|[|] ? ? ?| | | | |]; auto.
  destruct H as (e & He & Hv & Hx). destruct (v_evs _ _ _ M _ _ He) as (e' & He' & _ & _ & D). exists e'. split; [exact He'|]. destruct D as [D|[D _]]; [rewrite D; auto|contradiction].
Qed.
(** The process that runs has come to rest, or goes on. *)
Lemma Gen_move L p b S S' r r' : Inv S -> Inv S' -> Que (Some p) S -> Que b S' -> Gen L (Some p) S -> Mv p S S' -> proc_at p S = Some r -> proc_at p S' = Some r' -> pown r' = pown r ->
  (b = Some p \/ (b = None /\ Load L S' r')) ->
  (forall i x, proc_at i S' = Some x -> proc_at i S = None -> Load L S' x) ->
  (forall n ev q, dget (acts S') n = Some ev -> In q (heap S') -> qev q = ev -> ~ In q (heap S) -> room L S' q 1) ->
  (forall n ev, dget (acts S') n = Some ev -> dget (acts S) n = Some ev \/ (dget (extras S) n <> None /\ forall q, In q (heap S) -> qev q <> ev)) ->
  (forall n, dget (extras S) n = Some p \/ (dget (inter S') n = None -> dget (inter S) n = None)) ->
  (forall i x n, i <> p -> proc_at i S = Some x -> pcode x = KExtraPro n p -> dget (inter S') n = None -> Soon S' p) ->
  (forall i x n q, i <> p -> proc_at i S = Some x -> pcode x = KExtraPro n p \/ pcode x = KExtraCont n p -> pcode r' = KEnd -> In q (heap S') -> ~ In q (heap S) -> qev q = pown r' ->
     room L S' q 1 /\ (pcode x = KExtraPro n p -> forall e g, event_at (pown r') S' = Some e -> evalue e = Some (Good (XCont g)) -> exists k, k <= 4 /\ lasts (now S') k false g /\ room L S' q (1 + k))) ->
  (forall pr, In pr (sprocs (ss S')) -> pr = PProc \/ exists id n m i c bs t, pr = PReq id n m i c bs t /\ queues m = true /\ id < snext (ss S')) ->
  (forall n id, dget (inter S') n = Some id -> id < snext (ss S')) ->
  Gen L b S'.
Proof.
  intros HI HI' Q Q' G M Hp Hp' E5 Lp Ln Ha Hac Hin Hso Hend Hli Hint.
  assert (Rm : forall q w, room L S q w -> room L S' q w) by (intros q w H; unfold room in *; rewrite (v_now _ _ _ M); exact H).
  destruct (v_heap _ _ _ M) as (new & Eh & Hnew).
  assert (Spl : forall q, In q (heap S') -> In q (heap S) \/ In q new) by (intros q H; rewrite Eh in H; apply in_app_or; exact H).
  assert (Inn : forall q, In q new -> ~ In q (heap S)).
  { intros q H1 H2. destruct (Hnew q H1) as (H3 & _). destruct (q_heap _ _ Q q H2) as (H4 & _). lia. }
  (* entries of an event that had a value *)
  assert (Old : forall q ev e, event_at ev S = Some e -> evalue e <> None -> In q (heap S') -> qev q = ev -> In q (heap S)).
  { intros q ev e He Hv Hq E. destruct (Spl q Hq) as [H|H]; [exact H|]. destruct (Hnew q H) as (_ & _ & H2). rewrite E in H2. elim Hv. auto. }
  (* new entries for the end of a process *)
  assert (Mine : forall q pro rp, In q new -> proc_at pro S = Some rp -> qev q = pown rp -> pro = p /\ pcode r' = KEnd /\ pown rp = pown r').
  { intros q pro rp H Hrp Eq. assert (Hq : In q (heap S')) by (rewrite Eh; apply in_or_app; right; exact H).
    destruct (q_heap _ _ Q' q Hq) as (_ & _ & e3 & Y1 & Y2 & _). destruct (i_own _ HI pro rp Hrp) as (eo & Ho & Ro & Vo). destruct (Hnew q H) as (_ & _ & X). rewrite Eq in X, Y1. specialize (X _ Ho).
    destruct (v_evs _ _ _ M _ _ Ho) as (eo' & Ho' & Ro' & _). assert (E3 : e3 = eo') by congruence. subst e3.
    destruct (Nat.eq_dec pro p) as [E|E].
    - subst pro. split; [reflexivity|]. assert (E4 : rp = r) by congruence. subst rp. destruct (i_own _ HI' p r' Hp') as (e4 & H4 & R4 & V4).
      split; [|congruence]. rewrite E5 in H4. assert (E6 : e4 = eo') by congruence. subst e4. destruct (pcode r') eqn:Ec; try reflexivity; exfalso; apply Y2, V4; discriminate.
    - exfalso. pose proof (v_prs _ _ _ M _ _ E Hrp) as Hrp'. destruct (i_own _ HI' pro rp Hrp') as (e4 & H4 & _ & V4). assert (E6 : e4 = eo') by congruence. subst e4. apply Y2, V4, Vo. exact X. }
  constructor.
  - intros i x Hx Nb. destruct (Nat.eqb_spec i p) as [->|N]; [assert (x = r') by congruence; subst x; destruct Lp as [Lp|[_ Lp]]; [contradiction|exact Lp]|].
    destruct (proc_at i S) as [y|] eqn:Hy; [|exact (Ln i x Hx Hy)]. pose proof (v_prs _ _ _ M i y N Hy) as Hy'. assert (y = x) by congruence. subst y.
    assert (Lx : Load L S x) by (apply (g_load _ _ _ G i x Hy); congruence).
    assert (Qx : pcode x <> KEnd -> exists e, event_at (ptarget x) S = Some e /\ ecbs e = Some [CResume i] /\ aims S i (pcode x) (ptarget x) e) by (intros X; apply (q_wait _ _ Q i x Hy); congruence).
    pose proof (i_fits _ HI i x Hy) as F. pose proof (q_who _ _ Q i x Hy) as W.
    unfold Load in *. destruct (pcode x) as [| | | |n|n|n pro|n pro|[|] n g|[|] n e g| | | | |] eqn:Ec; auto.
    + destruct Lx as [L1 L2]. destruct Qx as (e & He & Hc & Ai); [congruence|]. destruct F as (rp & Hrp & _ & Op). cbn [who] in W.
      assert (In_ : dget (inter S') n = None -> dget (inter S) n = None) by (destruct (Hin n) as [X|X]; [congruence|exact X]).
      split.
      { intros Hn. destruct (Nat.eqb_spec pro p) as [->|Np]; [exact (Hso i x n N Hy Ec Hn)|]. apply (Soon_move p S); auto. }
      intros q Hq Eq. destruct (Spl q Hq) as [H|H].
      * destruct (L2 q H Eq) as [L3 L4]. split; [apply Rm; exact L3|]. intros e' g He' Hv. destruct (v_evs _ _ _ M _ _ He) as (e2 & X1 & _ & _ & X2). assert (e2 = e') by congruence. subst e2.
        assert (V : evalue e = Some (Good (XCont g))).
        { destruct X2 as [X2|[X2 _]]; [congruence|]. destruct (q_heap _ _ Q q H) as (_ & _ & e3 & Y1 & Y2 & _). rewrite Eq in Y1. congruence. }
        destruct (L4 e g He V) as (k & K1 & K2 & K3). exists k. rewrite (v_now _ _ _ M). auto.
      * destruct (Mine q pro rp H Hrp (eq_trans Eq (eq_sym Op))) as (-> & Ek & Eo). rewrite <- Op, Eo in Eq. destruct (Hend i x n q N Hy (or_introl Ec) Ek Hq (Inn q H) Eq) as [Z1 Z2].
        split; [exact Z1|]. rewrite <- Op, Eo. exact (Z2 Ec).
    + destruct Lx as [L1 L2]. destruct Qx as (e & He & Hc & Ai); [congruence|]. destruct F as (rp & Hrp & _ & Op). cbn [who] in W.
      assert (In_ : dget (inter S') n = None -> dget (inter S) n = None) by (destruct (Hin n) as [X|X]; [congruence|exact X]).
      split; [auto|]. intros q Hq Eq. destruct (Spl q Hq) as [H|H]; [apply Rm; exact (L2 q H Eq)|].
      destruct (Mine q pro rp H Hrp (eq_trans Eq (eq_sym Op))) as (-> & Ek & Eo). rewrite <- Op, Eo in Eq. exact (proj1 (Hend i x n q N Hy (or_intror Ec) Ek Hq (Inn q H) Eq)).
    + destruct Lx as (k & K1 & K2 & K3). exists k. rewrite (v_now _ _ _ M). split; [exact K1|]. split; [exact K2|]. intros q Hq Eq. apply Rm. apply K3; [|exact Eq].
      destruct Qx as (e & He & _ & (_ & q0 & Q1 & Q2)); [congruence|]. destruct (q_heap _ _ Q q0 Q1) as (_ & _ & e3 & Y1 & Y2 & _). rewrite Q2 in Y1. exact (Old q _ e3 Y1 Y2 Hq Eq).
    + destruct Lx as (K0 & k & K1 & K2 & K3). split; [exact K0|]. exists k. split; [exact K1|]. split; [exact K2|]. intros q Hq Eq. apply Rm. apply K3; [|exact Eq].
      destruct Qx as (e0 & He & _ & Ai); [congruence|]. cbn [aims] in Ai. destruct Ai as [t0 Ai]. exact (Old q _ e0 He (g_time _ _ _ G _ _ _ He Ai) Hq Eq).
  - intros n ev q Hn Hq Eq. destruct (Spl q Hq) as [H|H]; [|exact (Ha n ev q Hn Hq Eq (Inn q H))]. destruct (Hac n ev Hn) as [X|[_ X]]; [|elim (X q H Eq)]. apply Rm. exact (g_acts _ _ _ G n ev q X H Eq).
  - intros ev e' He' Hv Hc. destruct (event_at ev S) as [e|] eqn:He; [|exact (proj1 (v_born _ _ _ M _ _ He' He) Hv)].
    destruct (v_evs _ _ _ M _ _ He) as (e2 & X1 & _ & X3 & X2). assert (e2 = e') by congruence. subst e2. destruct X2 as [X2|[_ X2]]; [|exact X2].
    destruct (g_full _ _ _ G ev e He) as (q & Z1 & Z2); [congruence|intros Z; apply Hc, X3, Z|]. exists q. split; [exact (Mv_in _ _ _ _ M Z1)|exact Z2].
  - intros ev e' t He' Hr. destruct (event_at ev S) as [e|] eqn:He; [|exact (proj2 (v_born _ _ _ M _ _ He' He) t Hr)].
    destruct (v_evs _ _ _ M _ _ He) as (e2 & X1 & R2 & X3 & X2). assert (e2 = e') by congruence. subst e2. assert (V : evalue e <> None) by (apply (g_time _ _ _ G ev e t He); congruence). destruct X2 as [X2|[X2 _]]; congruence.
  - intros q e' Hq He' Hr. rewrite (v_now _ _ _ M). destruct (Spl q Hq) as [H|H].
    + destruct (q_heap _ _ Q q H) as (_ & _ & e & He & _). destruct (v_evs _ _ _ M _ _ He) as (e2 & X1 & R2 & _). assert (e2 = e') by congruence. subst e2. apply (g_fresh _ _ _ G q e H He). rewrite <- R2. exact Hr.
    + destruct (Hnew q H) as (_ & (e2 & X1 & X2) & _). apply X2. assert (e2 = e') by congruence. subst e2. exact Hr.
  - rewrite (v_ext _ _ _ M). apply G.
  - intros n ev Hn. rewrite (v_ext _ _ _ M). destruct (Hac n ev Hn) as [X|[X _]]; [exact (g_ext _ _ _ G n ev X)|exact X].
  - exact Hli.
  - exact Hint.
  - exact (v_uniq _ _ _ M (g_uniq _ _ _ G)).
Qed.

(** ** Other changes *)

Lemma Soon_at a S i x n pro : Inv S -> Que a S -> Gen None None S \/ (exists L, Gen L a S) -> proc_at i S = Some x -> pcode x = KExtraPro n pro -> a <> Some i -> a <> Some pro -> Soon S pro ->
  exists q e, In q (heap S) /\ qtime q = now S /\ event_at (qev q) S = Some e /\
    ((exists r, proc_at pro S = Some r /\ ptarget r = qev q /\ ecbs e = Some [CResume pro] /\ ((exists m g, pcode r = KLocal0 false m g) \/ exists m e0 g, pcode r = KLocal false m e0 g /\ etime e0 = now S)) \/
     (qev q = ptarget x /\ ecbs e = Some [CResume i])).
Proof.
  intros HI Q G Hx Hc Ni Np (r & Hr & H).
  assert (Full : forall ev e, event_at ev S = Some e -> evalue e <> None -> ecbs e <> None -> exists q, In q (heap S) /\ qev q = ev) by (destruct G as [G|(L & G)]; exact (g_full _ _ _ G)).
  assert (Time : forall ev e t, event_at ev S = Some e -> erole e = RTime t -> evalue e <> None) by (destruct G as [G|(L & G)]; exact (g_time _ _ _ G)).
  assert (Fresh : forall q e, In q (heap S) -> event_at (qev q) S = Some e -> (forall t, erole e <> RTime t) -> qtime q = now S) by (destruct G as [G|(L & G)]; exact (g_fresh _ _ _ G)).
  destruct (pcode r) as [| | | | | | | |[|] m g|[|] m e0 g| | | | |] eqn:Er; try contradiction.
  - destruct (q_wait _ _ Q pro r Hr Np) as (e & He & Ce & Ai); [congruence|]. rewrite Er in Ai. destruct Ai as (Ro & q & Q1 & Q2). exists q, e. rewrite Q2. split; [exact Q1|]. split; [apply (Fresh q e Q1); [congruence|rewrite Ro; discriminate]|].
    split; [exact He|]. left. exists r. rewrite Er. eauto 8.
  - destruct H as [H1 H2]. destruct (q_wait _ _ Q pro r Hr Np) as (e & He & Ce & Ai); [congruence|]. rewrite Er in Ai. destruct Ai as (t & Ro). pose proof (i_fits _ HI pro r Hr) as F. rewrite Er in F. destruct F as (e1 & F1 & F2).
    destruct (Full _ e He (Time _ e t He Ro)) as (q & Q1 & Q2); [congruence|]. exists q, e. rewrite Q2. split; [exact Q1|]. split.
    + destruct (i_heap _ HI q Q1) as (_ & e2 & X1 & X2). rewrite Q2 in X1. rewrite (X2 (etime e0)); congruence.
    + split; [exact He|]. left. exists r. rewrite Er. eauto 10.
  - destruct H as (e & He & Hv & _). destruct (q_wait _ _ Q i x Hx Ni) as (e1 & He1 & Ce & Ai); [congruence|]. pose proof (i_fits _ HI i x Hx) as F. rewrite Hc in F. destruct F as (rp & Hrp & _ & Op). assert (rp = r) by congruence. subst rp.
    rewrite <- Op in He1. assert (e1 = e) by congruence. subst e1. destruct (Full _ e He Hv) as (q & Q1 & Q2); [congruence|]. exists q, e. rewrite Q2. split; [exact Q1|].
    rewrite Hc in Ai. destruct Ai as (i0 & Ro). split; [apply (Fresh q e Q1); [congruence|rewrite Ro; discriminate]|]. split; [exact He|]. right. auto.
Qed.

Lemma Soon_same S S' pro : Soon S pro -> now S' = now S -> prs S' = prs S -> (forall ev e, event_at ev S = Some e -> exists e', event_at ev S' = Some e' /\ evalue e' = evalue e) -> Soon S' pro.
Proof.
  intros (r & Hr & H) En Ep Ev. exists r. unfold proc_at in *. rewrite Ep. split; [exact Hr|]. rewrite En. destruct (pcode r) as [| | | | | | | |[|] ? ?|[|] ? ? ?| | | | |]; auto.
  destruct H as (e & He & H1 & H2). destruct (Ev _ _ He) as (e' & He' & V). exists e'. rewrite V. auto.
Qed.

(** The next entry of the queue is taken. *)
Lemma Gen_popped L S q h e : Inv S -> Que None S -> Gen L None S -> pop_min (heap S) = Some (q, h) -> event_at (qev q) S = Some e -> (L <> None -> qtime q = now S) -> Gen L (resumed e) (popped q h e S).
Proof.
  intros HI Q G Hpop He HL. set (S' := popped q h e S). set (e' := MkEvt (erole e) (evalue e) (edefused e) None).
  assert (Ev : forall i, event_at i S' = if Nat.eqb i (qev q) then Some e' else event_at i S) by (intros i; exact (at_changed i (qev q) e' e S He)).
  assert (Iq : forall x, In x (heap S) <-> x = q \/ In x h) by (intros x; exact (in_popped S q h e Hpop x)).
  assert (Mi : forall x, In x (heap S) -> before q x) by (intros x; exact (popped_first S q h Hpop x)).
  assert (Ge : (now S <= qtime q)%Z) by (destruct (q_heap _ _ Q q) as (_ & X & _); [apply Iq; auto|exact X]).
  assert (Rm : forall x w, room L S x w -> room L S' x w).
  { intros x w H. destruct L as [[k [qm|]]|]; [| |exact I]; unfold room in *; change (now S') with (qtime q); rewrite HL by discriminate; exact H. }
  assert (Vs : forall ev y, event_at ev S = Some y -> exists y', event_at ev S' = Some y' /\ evalue y' = evalue y).
  { intros ev y Hy. rewrite Ev. destruct (Nat.eqb_spec ev (qev q)) as [->|N]; [exists e'; split; [reflexivity|]; cbn; congruence|eauto]. }
  (* something at the present moment is left: time does not go on *)
  assert (Tm : forall x, In x (heap S) -> qtime x = now S -> qtime q = now S) by (intros x Hx Tx; pose proof (Mi x Hx) as B; unfold before in B; lia).
  constructor.
  - intros i x Hx Ni. change (proc_at i S = Some x) in Hx. assert (Nn : None <> Some i) by discriminate. pose proof (g_load _ _ _ G i x Hx Nn) as Lx. unfold Load in *.
    destruct (pcode x) as [| | | |n|n|n pro|n pro|[|] n g|[|] n e0 g| | | | |] eqn:Ec; auto.
    + destruct Lx as [L1 L2]. split.
      * intros Hn. specialize (L1 Hn). assert (Np : None <> Some pro) by discriminate. destruct (Soon_at None S i x n pro HI Q (or_intror (ex_intro _ L G)) Hx Ec Nn Np L1) as (q1 & e1 & X1 & X2 & _).
        apply (Soon_same S); auto. exact (Tm q1 X1 X2).
      * intros q1 Hq1 Eq1. assert (H1 : In q1 (heap S)) by (apply Iq; right; exact Hq1). destruct (L2 q1 H1 Eq1) as [L3 L4]. split; [apply Rm; exact L3|].
        intros y g Hy Vy. destruct (q_heap _ _ Q q1 H1) as (_ & _ & y0 & Hy0 & _). rewrite Eq1 in Hy0. destruct (Vs _ _ Hy0) as (y1 & Hy1 & V1). assert (y1 = y) by congruence. subst y1.
        destruct (L4 y0 g Hy0) as (k & K1 & K2 & K3); [congruence|]. exists k. split; [exact K1|]. split; [|apply Rm; exact K3]. change (now S') with (qtime q). rewrite (Tm q1 H1); [exact K2|].
        apply (g_fresh _ _ _ G q1 y0 H1); [congruence|]. intros t Rt. pose proof (i_fits _ HI i x Hx) as F. rewrite Ec in F. destruct F as (rp & Hrp & _ & Op). destruct (i_own _ HI pro rp Hrp) as (eo & Ho & Ro & _). congruence.
    + destruct Lx as [L1 L2]. split; [exact L1|]. intros q1 Hq1 Eq1. apply Rm. apply L2; [apply Iq; right; exact Hq1|exact Eq1].
    + destruct Lx as (k & K1 & K2 & K3). exists k. split; [exact K1|]. split.
      * change (now S') with (qtime q). destruct (q_wait _ _ Q i x Hx Nn) as (y & Hy & Cy & Ai); [congruence|]. rewrite Ec in Ai. destruct Ai as (Ro & q1 & Q1 & Q2).
        rewrite (Tm q1 Q1); [exact K2|]. apply (g_fresh _ _ _ G q1 y Q1); [congruence|rewrite Ro; discriminate].
      * intros q1 Hq1 Eq1. apply Rm. apply K3; [apply Iq; right; exact Hq1|exact Eq1].
    + destruct Lx as (K0 & k & K1 & K2 & K3). split; [exact K0|]. exists k. split; [exact K1|]. split; [exact K2|]. intros q1 Hq1 Eq1. apply Rm. apply K3; [apply Iq; right; exact Hq1|exact Eq1].
  - intros n ev q1 Hn Hq1 E1. apply Rm. apply (g_acts _ _ _ G n ev q1 Hn); [apply Iq; right; exact Hq1|exact E1].
  - intros ev y Hy Vy Cy. rewrite Ev in Hy. destruct (Nat.eqb_spec ev (qev q)) as [->|N]; [injection Hy as <-; elim Cy; reflexivity|]. destruct (g_full _ _ _ G ev y Hy Vy Cy) as (q1 & X1 & X2). exists q1. split; [|exact X2].
    apply Iq in X1. destruct X1 as [->|X1]; [congruence|exact X1].
  - intros ev y t Hy Ry. rewrite Ev in Hy. destruct (Nat.eqb_spec ev (qev q)) as [->|N]; [injection Hy as <-; exact (g_time _ _ _ G _ e t He Ry)|exact (g_time _ _ _ G ev y t Hy Ry)].
  - intros q1 y Hq1 Hy Ry. change (now S') with (qtime q). assert (H1 : In q1 (heap S)) by (apply Iq; right; exact Hq1).
    assert (X : qtime q1 = now S). { rewrite Ev in Hy. destruct (Nat.eqb_spec (qev q1) (qev q)) as [E|N]; [injection Hy as <-; apply (g_fresh _ _ _ G q1 e H1); [congruence|exact Ry]|exact (g_fresh _ _ _ G q1 y H1 Hy Ry)]. }
    rewrite (Tm q1 H1 X). exact X.
  - exact (g_proc _ _ _ G).
  - exact (g_ext _ _ _ G).
  - exact (g_list _ _ _ G).
  - exact (g_inter _ _ _ G).
  - destruct (g_uniq _ _ _ G) as [U1 U2]. split.
    + destruct (pop_min_split _ _ _ Hpop) as (l1 & l2 & El & Eh & _). change (heap S') with h. rewrite Eh, map_app. rewrite El, map_app in U1. exact (NoDup_remove_1 _ _ _ U1).
    + intros x Hx. destruct (U2 x) as (y & Hy & Vy); [apply Iq; right; exact Hx|]. destruct (Vs _ _ Hy) as (y' & Hy' & V'). exists y'. split; [exact Hy'|congruence].
Qed.
Lemma Gen_pick L p S : Gen L None S -> Gen L (Some p) S.
Proof. intros [A B C D E F G H I J]. constructor; auto. intros i r Hr _. apply (A i r Hr). discriminate. Qed.
(** Things that do not matter. *)
Lemma Gen_same L a S S' : Gen L a S -> now S' = now S -> heap S' = heap S -> prs S' = prs S -> acts S' = acts S -> extras S' = extras S -> inter S' = inter S -> ss S' = ss S ->
  (forall ev e', event_at ev S' = Some e' -> exists e, event_at ev S = Some e /\ erole e' = erole e /\ evalue e' = evalue e /\ (ecbs e = None -> ecbs e' = None)) ->
  (forall ev e, event_at ev S = Some e -> exists e', event_at ev S' = Some e') -> Gen L a S'.
Proof.
  intros G En Eh Ep Ea Ex Ei Es Ev Ev'.
  assert (Rm : forall q w, room L S q w -> room L S' q w) by (intros q w H; unfold room in *; rewrite En; exact H).
  assert (Vs : forall ev e, event_at ev S = Some e -> exists e', event_at ev S' = Some e' /\ evalue e' = evalue e).
  { intros ev e He. destruct (Ev' _ _ He) as (e' & He'). exists e'. split; [exact He'|]. destruct (Ev _ _ He') as (x & Hx & _ & V & _). congruence. }
  constructor.
  - intros i x Hx Ni. unfold proc_at in Hx. rewrite Ep in Hx. pose proof (g_load _ _ _ G i x Hx Ni) as Lx. unfold Load in *. rewrite Eh, En, Ei.
    destruct (pcode x) as [| | | |n|n|n pro|n pro|[|] n g|[|] n e0 g| | | | |] eqn:Ec; auto.
    + destruct Lx as [L1 L2]. split; [intros Hn; apply (Soon_same S); auto|]. intros q Hq Eq. destruct (L2 q Hq Eq) as [L3 L4]. split; [auto|]. intros e g He V. destruct (Ev _ _ He) as (y & Hy & _ & V' & _).
      destruct (L4 y g Hy) as (k & K1 & K2 & K3); [congruence|]. exists k. auto.
    + destruct Lx as [L1 L2]. split; [exact L1|]. auto.
    + destruct Lx as (k & K1 & K2 & K3). exists k. auto.
    + destruct Lx as (K0 & k & K1 & K2 & K3). split; [exact K0|]. exists k. auto.
  - intros n ev q Hn Hq Eq. rewrite Ea in Hn. rewrite Eh in Hq. apply Rm. exact (g_acts _ _ _ G n ev q Hn Hq Eq).
  - intros ev e' He' Hv Hc. destruct (Ev _ _ He') as (e & He & _ & V & C). rewrite Eh. apply (g_full _ _ _ G ev e He); [congruence|auto].
  - intros ev e' t He' Hr. destruct (Ev _ _ He') as (e & He & R & V & _). rewrite V. apply (g_time _ _ _ G ev e t He). congruence.
  - intros q e' Hq He' Hr. rewrite En. rewrite Eh in Hq. destruct (Ev _ _ He') as (e & He & R & _). apply (g_fresh _ _ _ G q e Hq He). rewrite <- R. exact Hr.
  - rewrite Ex. exact (g_proc _ _ _ G).
  - rewrite Ex, Ea. exact (g_ext _ _ _ G).
  - rewrite Es. exact (g_list _ _ _ G).
  - rewrite Es, Ei. exact (g_inter _ _ _ G).
  - apply (Uniq_same S); auto; [exact (g_uniq _ _ _ G)|]. intros ev e He Ve. destruct (Vs _ _ He) as (e' & He' & V'). exists e'. split; [exact He'|congruence].
Qed.
Lemma Gen_todo L a l S : Gen L a S -> Gen L a (set_todo l S).
Proof. intros G. apply (Gen_same L a S); auto; [intros ev e' He'; exists e'; auto|intros ev e He; exists e; exact He]. Qed.
Lemma Gen_torn L p r e S : Gen L None S -> event_at (ptarget r) S = Some e -> ecbs e = Some [CResume p] -> Gen L (Some p) (torn (ptarget r) e S).
Proof.
  intros G He Hc. apply (Gen_same L (Some p) S); auto; [exact (Gen_pick L p S G)| |].
  - intros ev e' He'. unfold torn in He'. rewrite (at_changed _ _ _ _ _ He) in He'. destruct (Nat.eqb_spec ev (ptarget r)) as [->|N]; [|exists e'; auto]. injection He' as <-. exists e. split; [exact He|]. split; [reflexivity|]. split; [reflexivity|]. congruence.
  - intros ev x Hx. unfold torn. rewrite (at_changed _ _ _ _ _ He). destruct (Nat.eqb ev (ptarget r)); eauto.
Qed.

Definition NoBaby (S : sim) : Prop := forall p r n g, proc_at p S = Some r -> pcode r <> KLocal0 false n g.
(** The process of the rules comes closer. *)
Lemma Gen_limit L L' a S : Inv S -> Que a S -> Gen L a S ->
  (forall q w, In q (heap S) -> qprio q = NORMAL -> 1 <= w <= 6 -> room L S q w -> room L' S q w) ->
  (NoBaby S \/ forall q w, In q (heap S) -> qprio q = URGENT -> w <= 5 -> room L S q w -> room L' S q w) -> Gen L' a S.
Proof.
  intros HI Q G Hn Hu. destruct G as [A B C D E F G H J Un].
  assert (No : forall q e, In q (heap S) -> event_at (qev q) S = Some e -> urgent (erole e) = false -> qprio q = NORMAL).
  { intros q e Hq He U. destruct (q_heap _ _ Q q Hq) as (_ & _ & x & Hx & _ & X). assert (x = e) by congruence. subst x. rewrite U in X. exact X. }
  constructor; auto.
  - intros i x Hx Ni. specialize (A i x Hx Ni). assert (Qx : pcode x <> KEnd -> exists e, event_at (ptarget x) S = Some e /\ ecbs e = Some [CResume i] /\ aims S i (pcode x) (ptarget x) e) by (intros X; exact (q_wait _ _ Q i x Hx Ni X)).
    unfold Load in *. destruct (pcode x) as [| | | |n|n|n pro|n pro|[|] n g|[|] n e0 g| | | | |] eqn:Ec; auto.
    + destruct A as [A1 A2]. split; [exact A1|]. intros q Hq Eq. destruct Qx as (e & He & _ & (i0 & Ro)); [congruence|]. assert (Nq : qprio q = NORMAL) by (apply (No q e Hq); [congruence|rewrite Ro; reflexivity]).
      destruct (A2 q Hq Eq) as [A3 A4]. split; [apply Hn; auto; lia|]. intros y g Hy Vy. destruct (A4 y g Hy Vy) as (k & K1 & K2 & K3). exists k. split; [exact K1|]. split; [exact K2|]. apply Hn; auto. lia.
    + destruct A as [A1 A2]. split; [exact A1|]. intros q Hq Eq. destruct Qx as (e & He & _ & (i0 & Ro)); [congruence|]. assert (Nq : qprio q = NORMAL) by (apply (No q e Hq); [congruence|rewrite Ro; reflexivity]). apply Hn; auto. lia.
    + destruct Hu as [Hu|Hu]; [elim (Hu i x n g Hx Ec)|]. destruct A as (k & K1 & K2 & K3). exists k. split; [exact K1|]. split; [exact K2|]. intros q Hq Eq. apply Hu; auto.
      destruct Qx as (e & He & _ & (Ro & _)); [congruence|]. destruct (q_heap _ _ Q q Hq) as (_ & _ & y & Hy & _ & X). rewrite Eq in Hy. assert (y = e) by congruence. subst y. rewrite Ro in X. apply X.
    + destruct A as (K0 & k & K1 & K2 & K3). split; [exact K0|]. exists k. split; [exact K1|]. split; [exact K2|]. intros q Hq Eq. destruct Qx as (e & He & _ & (t & Ro)); [congruence|].
      assert (Nq : qprio q = NORMAL) by (apply (No q e Hq); [congruence|rewrite Ro; reflexivity]). apply Hn; auto. lia.
  - intros n ev q Hq1 Hq Eq. destruct (q_acts _ _ Q n ev Hq1) as (e & He & Ro). assert (Nq : qprio q = NORMAL) by (apply (No q e Hq); [congruence|rewrite Ro; reflexivity]). apply Hn; auto; [lia|]. exact (B n ev q Hq1 Hq Eq).
Qed.
