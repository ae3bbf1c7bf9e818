(** What the processes of a simulation without environment do to the scheduling. *)
From Coq Require Import Lia Sorted.
From Verif Require Import Base BaseFacts Chunks DecMem Buffers BufferFacts Productions ProdSpec LearnFacts Sim SimFacts RunFacts LiftFacts SafeSpec RequestFacts QueueFacts SafeFacts.
Local Open Scope string_scope.
Local Open Scope list_scope.
Local Open Scope nat_scope.

Definition Rest (S : sim) : Prop := dead S = None /\ hasenv S = false /\ exists ev, todo S = [WEnd ev].
(** The process [p] runs. *)
Record Going (p : nat) (S : sim) : Prop := MkGoing {
  g_rest : Rest S;
  g_que : Que (Some p) S;
  g_sem : Sem (called S) (Some p) S }.

Lemma Going_fired p ev e S : Going p S -> p <> 0 -> event_at ev S = Some e -> erole e = RAct -> evalue e = None ->
  early S = None \/ (forall n, dget (acts S) n <> Some ev) ->
  (forall q r n, proc_at q S = Some r -> pcode r = KExtraAct n -> p <> q -> dget (acts S) n <> Some ev) -> Going p (fired ev e S).
Proof.
  intros [R Q H] Hp He Hr Hv Hea Hi. constructor; [exact R|apply Que_fired; auto; rewrite Hr; reflexivity|].
  eapply Sem_fired; eauto.
  - intros n Cn. apply (called_gen (Some p) S (fired ev e S) [MkQ (now S + 0) NORMAL (eid S) ev]); auto; [congruence|]. intros q [<-|[]]. right. exists e. cbn [qev]. split; [exact He|]. rewrite Hr. discriminate.
  - intros q r n A B C D. elim (Hi q r n A B); congruence.
Qed.
Lemma Going_spawned p n g S : Going p S -> p <> 0 -> p < List.length (prs S) -> free tame g -> Going p (spawned (KLocal0 false n g) S).
Proof.
  intros [R Q H] Hp Hl Hg. constructor; [exact R|apply Que_spawned; auto; [intros ? [= <-]; exact Hl|exact I|discriminate]|].
  eapply Sem_weaken; [apply Sem_spawned; [exact H|exact Q|exact Hg]|]. intros m Cm. eapply called_gen; [exact Q|congruence|exact Cm|..]; try reflexivity.
  - destruct (s_main _ _ _ H) as (r & A & _). rewrite A. apply pat_spawned_old. exact A.
  - intros q [<-|[]]. left. cbn [qev]. lia.
Qed.
Lemma Going_struck p i r S : Going p S -> p <> 0 -> proc_at i S = Some r ->
  (soft_code (pcode r) \/ exists n g q, pcode r = KLocal0 false n g /\ In q (heap S) /\ role_at (qev q) (RInit i) S) ->
  (forall n, dget (extras S) n = Some i -> hits i S + 1 <= cnt n S) -> Going p (struck i S).
Proof.
  intros [R Q H] Hp Hi Hs Hc. constructor; [exact R|apply Que_struck; exact Q|]. eapply Sem_weaken; [eapply Sem_struck; eauto|].
  intros m Cm. eapply called_gen; [exact Q|congruence|exact Cm|..]; try reflexivity. intros q [<-|[]]. left. cbn [qev]. lia.
Qed.
Lemma Going_timed p d S : Going p S -> p <> 0 -> (0 <= d)%Z -> Going p (timed d S).
Proof.
  intros [R Q H] Hp Hd. constructor; [exact R|apply Que_timed; auto|]. eapply Sem_timed; [exact Q|exact H|].
  intros m Cm. eapply called_gen; [exact Q|congruence|exact Cm|..]; try reflexivity. intros q [<-|[]]. left. cbn [qev]. lia.
Qed.
(** A new event of the buffer whose process runs. *)
Definition renewed (n : string) (S : sim) : sim := set_acts (dset (acts S) n (List.length (evs S))) (added act0 S).
Lemma atrig_renewed a m n S : Que a S -> atrig m (renewed n S) = if String.eqb m n then false else atrig m S.
Proof.
  intros Q. unfold atrig, renewed. cbn [acts set_acts added set_evs]. destruct (String.eqb_spec m n) as [->|N].
  - rewrite dget_dset_eq. unfold trig. change (event_at _ _) with (event_at (List.length (evs S)) (added act0 S)). rewrite at_added, Nat.eqb_refl. reflexivity.
  - rewrite dget_dset_neq by congruence. destruct (dget (acts S) m) as [ev|] eqn:E; [|reflexivity]. destruct (acts_old _ _ _ _ Q E) as (x & Hx & _). apply (trig_added _ x). exact Hx.
Qed.
Lemma Going_renewed p r n S : Going p S -> p <> 0 -> proc_at p S = Some r -> pcode r = KExtraAct n -> early S = None -> Going p (renewed n S).
Proof.
  intros [R Q H] Hp Hr Hc He. pose proof (q_who _ _ Q p r Hr) as Wr. rewrite Hc in Wr. cbn [who] in Wr.
  assert (Fresh : forall m, dget (acts S) m <> Some (List.length (evs S))) by (intros m Hm; destruct (q_acts _ _ Q m _ Hm) as (x & Hx & _); apply at_old in Hx; lia).
  assert (Un : forall q x, proc_at q S = Some x -> xcode n (pcode x) -> q = p).
  { intros q x Hx Hk. pose proof (q_who _ _ Q q x Hx) as Wx. destruct (pcode x); try contradiction; cbn in Hk, Wx; subst; congruence. }
  constructor; [exact R| |].
  - apply (Que_acts (Some p) n _ (added act0 S)); [apply Que_added; auto; left; reflexivity| |exists act0; split; [rewrite at_added, Nat.eqb_refl; reflexivity|reflexivity]|exact Fresh|].
    + intros q x Hx Ha E. apply Ha. f_equal. symmetry. apply (Un q x Hx). rewrite E. reflexivity.
    + destruct (q_pact _ _ Q) as (x & Hx & _). apply at_old in Hx. cbn. lia.
  - apply (Sem_gen (called S) _ (Some p) S (renewed n S) [] H (Que_backed _ _ Q)); auto.
    + exact (keeps_added act0 S).
    + intros m ev Hm. cbn [renewed acts set_acts]. destruct (String.eqb_spec m n) as [->|N]; [rewrite dget_dset_eq; eauto|rewrite dget_dset_neq by congruence; eauto].
    + exact (s_cnt _ _ _ H).
    + exact (sound_added act0 S (s_vals _ _ _ H) I).
    + cbn. rewrite app_nil_r. reflexivity.
    + intros q x m Hq Hb. rewrite (atrig_renewed _ _ _ _ Q). destruct (String.eqb_spec m n) as [->|N]; [|auto].
      assert (q = p) by (apply (Un q x Hq); destruct (pcode x); try contradiction; exact Hb). subst q. assert (x = r) by congruence. subst x. rewrite Hc in Hb. contradiction.
    + intros q x m Hq Hk Ha. rewrite (atrig_renewed _ _ _ _ Q). destruct (String.eqb_spec m n) as [->|N]; [discriminate|]. intros Ht.
      destruct (s_idle _ _ _ H q x m Hq Hk Ha Ht) as [D|D]; [left; exact D|right]. apply (called_gen (Some p) S (renewed n S) [] m Q); auto; [congruence| |cbn; rewrite app_nil_r; reflexivity|intros ? []].
      cbn [renewed acts set_acts added set_evs]. apply dget_dset_neq. congruence.
Qed.
Lemma Going_rest p S S' : Going p S -> p <> 0 -> Rest S' -> now S' = now S -> eid S' = eid S -> evs S' = evs S -> heap S' = heap S -> prs S' = prs S -> extras S' = extras S -> acts S' = acts S -> pact S' = pact S ->
  early S' = None \/ early S' = early S -> (forall n q, dget (extras S) n = Some q -> hits q S <= cnt n S') ->
  (forall q r n, proc_at q S = Some r -> pcode r = KExtraAct n -> p <> q -> atrig n S = true -> dget (inter S') n = None \/ dget (inter S') n = dget (inter S) n) -> Going p S'.
Proof.
  intros [R Q H] Hp R' En Ei Ee Eh Ep Ex Ea Epa Er Hc Hi. constructor; [exact R'|apply (Que_same (Some p) S); auto|].
  assert (Ca : forall n, called S n -> called S' n).
  { intros n Cn. apply (called_gen (Some p) S S' [] n Q); [congruence|exact Cn|unfold proc_at; rewrite Ep; reflexivity|rewrite Ea; reflexivity|rewrite app_nil_r; exact Eh|intros ? []]. }
  eapply (Sem_rest (called S)); eauto. intros q r n A B C D. destruct (Hi q r n A B) as [E|E]; [congruence|exact D|left; exact E|]. rewrite E.
  destruct (s_idle _ _ _ H q r n A B C D); auto.
Qed.

(** ** Waiting and ending *)

Section Park.
Variables (W W' : string -> Prop) (p : nat) (r : prc) (c : code) (ev : nat) (e : evt) (S : sim).
Hypothesis Q : Que (Some p) S.
Hypothesis H : Sem W (Some p) S.
Hypothesis Hp : proc_at p S = Some r.
Hypothesis He : event_at ev S = Some e.
Let S' := parked p r c ev e S.

Lemma pat_parked i : proc_at i S' = if Nat.eqb i p then Some (MkPrc (pkind r) (pown r) ev c) else proc_at i S.
Proof. exact (pat_upd i p _ r S Hp). Qed.
Lemma at_parked i : event_at i S' = if Nat.eqb i ev then Some (MkEvt (erole e) (evalue e) (edefused e) (Some [CResume p])) else event_at i S.
Proof. exact (at_changed i ev _ e S He). Qed.
Lemma atrig_parked n : atrig n S' = atrig n S.
Proof. exact (atrig_same n ev e (MkEvt (erole e) (evalue e) (edefused e) (Some [CResume p])) S He eq_refl). Qed.
Lemma holds_parked : holds S S'.
Proof. exact (holds_changed ev e (MkEvt (erole e) (evalue e) (edefused e) (Some [CResume p])) S He (or_introl eq_refl)). Qed.
Lemma Sem_parked :
  (p = 0 -> mcode c) -> (forall n, dget (extras S) n = Some p -> xcode n c) -> hits p S = 0 \/ soft_code c ->
  match c with
  | KLocal0 true _ _ | KLocal true _ _ _ => exists r0 f, proc_at 0 S = Some r0 /\ p <> 0 /\ pcode r0 = KProcPro f /\ ptarget r0 = pown r
  | KLocal0 false _ g | KLocal false _ _ g => free tame g
  | _ => True
  end ->
  (forall n, busy n c -> atrig n S = true) ->
  (forall l, early S = Some l -> (p = 0 -> c = KProc0 \/ c = KProcPro true) /\ forall n, xcode n c -> (c = KExtra0 n \/ c = KExtraAct n) /\ atrig n S = false) ->
  (p = 0 -> forall q x, proc_at q S = Some x -> q <> 0 -> chief (pcode x) -> exists f, c = KProcPro f /\ ev = pown x) ->
  (forall n, c = KExtraAct n -> atrig n S = true -> dget (inter S) n = None \/ W' n) -> (forall n, W n -> W' n) -> Sem W' None S'.
Proof.
  intros H1 H2 H3 H4 H5 H6 H7 H8 H9. set (e' := MkEvt (erole e) (evalue e) (edefused e) (Some [CResume p])). set (S1 := changed ev e' S). set (r' := MkPrc (pkind r) (pown r) ev c).
  assert (K : keeps S S1) by exact (keeps_changed ev e e' S He eq_refl).
  assert (Hs : sound e') by exact (s_vals _ _ _ H ev e He).
  assert (A1 : Sem W (Some p) S1) by exact (Sem_changed W W (Some p) S Q H (fun n X => X) ev e e' He eq_refl eq_refl Hs).
  assert (At : forall n, atrig n S1 = atrig n S) by (intros n; apply (atrig_same n ev e); auto).
  assert (Hh : hits p S1 = hits p S) by exact (hits_same p S S1 K (Que_backed _ _ Q) eq_refl).
  assert (A2 : Sem W (Some p) (set_prs (upd (prs S1) p r') S1)).
  { apply (Sem_code W p r r' S1); auto; cbn [pcode r'].
    - rewrite Hh. exact H3.
    - intros n Hb. rewrite At. auto.
    - intros l El. destruct (H6 l El) as [B1 B2]. split; [exact B1|]. intros n Hx. rewrite At. auto. }
  assert (Pp : proc_at p S' = Some r') by (rewrite pat_parked, Nat.eqb_refl; reflexivity).
  apply (Sem_release W W' p r' S'); auto; cbn [pcode ptarget r'].
  - destruct H3 as [H3|H3]; [left|right; exact H3]. transitivity (hits p S1); [reflexivity|congruence].
  - intros E q x Hx Hk. rewrite pat_parked in Hx. destruct (Nat.eqb_spec q p) as [Eq|N]; [|apply (H7 E q x); auto; congruence].
    injection Hx as <-. cbn [pcode] in Hk. specialize (H1 E). destruct c; contradiction.
  - intros n E. rewrite atrig_parked. auto.
Qed.
Lemma tight_parked n : tight None n S' -> tight (Some p) n S \/ c = KExtra0 n \/ (c = KExtraAct n /\ atrig n S = false).
Proof.
  intros (q & x & Hx & Hk). rewrite pat_parked in Hx. rewrite atrig_parked in Hk. destruct (Nat.eqb_spec q p) as [->|N].
  - injection Hx as <-. cbn [pcode] in Hk. destruct Hk as [Hk|(A & _ & B)]; auto.
  - left. exists q, x. split; [exact Hx|]. destruct Hk as [Hk|(A & _ & B)]; [auto|]. right. split; [exact A|]. split; [congruence|exact B].
Qed.
Lemma Phase_parked : Phase (Some p) S -> p <> 0 -> ~ chief (pcode r) -> pcode r <> KEnd ->
  (forall n, c = KExtra0 n \/ c = KExtraAct n /\ atrig n S = false -> cnt n S = 0 \/ tight (Some p) n S) -> Phase None S'.
Proof.
  intros Ph N0 Nc Ne Ht. apply (Phase_gen (Some p) None S S' Ph); auto.
  - rewrite pat_parked. destruct (Nat.eqb_spec 0 p); [congruence|reflexivity].
  - intros q x Hx Hk. rewrite pat_parked. destruct (Nat.eqb_spec q p) as [->|N]; [|exact Hx]. assert (x = r) by congruence. subst x. tauto.
  - apply holds_parked.
  - intros n Tn. change (cnt n S') with (cnt n S). destruct (tight_parked n Tn) as [T1|T1]; [right; auto|]. destruct (Ht n T1); auto.
Qed.
Lemma Ok_parked : Rest S -> ecbs e = Some [] -> c <> KEnd -> who S p c -> aims S p c ev e ->
  Sem (called S') None S' -> Phase None S' -> Ok (hand_over p ev (set_prc p (fun r => MkPrc (pkind r) (pown r) (ptarget r) c) S)).
Proof.
  intros (R1 & R2 & ev0 & R3) Hc Hk Hw Ha Hs Hph. rewrite (park_eq p r c ev e S Hp He Hc). fold S'. constructor; [exact R1|exact R2|]. exists None.
  split; [apply Que_parked; auto|]. split; [eapply Sem_weaken; [exact Hs|intros n Cn; split; [discriminate|exact Cn]]|].
  split; [right; exact Hph|]. unfold Todo. change (todo S') with (todo S). rewrite R3. reflexivity.
Qed.
End Park.

(** The process ends. *)
Section Finish.
Variables (W W' : string -> Prop) (p : nat) (r : prc) (o : outcome) (e : evt) (S : sim).
Hypothesis Q : Que (Some p) S.
Hypothesis H : Sem W (Some p) S.
Hypothesis Hp : proc_at p S = Some r.
Hypothesis He : event_at (pown r) S = Some e.
Hypothesis N0 : p <> 0.
Hypothesis Hr : erole e = ROwn p.
Hypothesis Hv : evalue e = None.
Let S' := finished p r o e S.

Lemma pat_finished i : proc_at i S' = if Nat.eqb i p then Some (MkPrc (pkind r) (pown r) (ptarget r) KEnd) else proc_at i S.
Proof. exact (pat_upd i p _ r S Hp). Qed.
Lemma at_finished i : event_at i S' = if Nat.eqb i (pown r) then Some (valued o e) else event_at i S.
Proof. exact (at_changed i (pown r) (valued o e) e (moved p r KEnd S) He). Qed.
Lemma own_no_act n : dget (acts S) n <> Some (pown r).
Proof. intros E. destruct (q_acts _ _ Q n _ E) as (x & Hx & R). congruence. Qed.
Lemma atrig_finished n : atrig n S' = atrig n S.
Proof. exact (atrig_changed n (pown r) e (valued o e) S He (own_no_act n)). Qed.
Lemma holds_finished : holds S S'.
Proof. exact (holds_changed (pown r) e (valued o e) S He (or_intror Hv)). Qed.
Lemma Sem_finished : (forall n, dget (extras S) n <> Some p) -> sound (valued o e) -> (forall n, W n -> W' n) -> Sem W' None S'.
Proof.
  intros Hx Hs WW. set (S1 := queued NORMAL 0 (pown r) (changed (pown r) (valued o e) S)). set (r' := MkPrc (pkind r) (pown r) (ptarget r) KEnd).
  assert (A1 : Sem W (Some p) S1).
  { apply (Sem_ended W W (Some p) S Q H (fun n X => X)); auto; [rewrite Hr; discriminate|exact own_no_act]. }
  assert (A2 : Sem W (Some p) (set_prs (upd (prs S1) p r') S1)).
  { apply (Sem_code W p r r' S1 A1 Hp eq_refl); cbn [pcode r'].
    - intros E. contradiction.
    - intros n E. elim (Hx n E).
    - right. exact I.
    - exact I.
    - intros n [].
    - intros l _. split; [intros E; contradiction|]. intros n []. }
  assert (Pp : proc_at p S' = Some r') by (rewrite pat_finished, Nat.eqb_refl; reflexivity).
  apply (Sem_release W W' p r' S' A2 Pp); cbn [pcode ptarget r'].
  - right. exact I.
  - intros E. contradiction.
  - discriminate.
  - exact WW.
Qed.
Lemma tight_finished n : tight None n S' -> tight (Some p) n S.
Proof.
  intros (q & x & Hx & Hk). rewrite pat_finished in Hx. rewrite atrig_finished in Hk. destruct (Nat.eqb_spec q p) as [->|N].
  - injection Hx as <-. cbn [pcode] in Hk. destruct Hk as [Hk|(A & _ & B)]; discriminate.
  - exists q, x. split; [exact Hx|]. destruct Hk as [Hk|(A & _ & B)]; [auto|]. right. split; [exact A|]. split; [congruence|exact B].
Qed.
Lemma Phase_finished : Phase (Some p) S -> ~ chief (pcode r) -> pcode r <> KEnd -> Phase None S'.
Proof.
  intros Ph Nc Ne. apply (Phase_gen (Some p) None S S' Ph); auto.
  - rewrite pat_finished. destruct (Nat.eqb_spec 0 p); [congruence|reflexivity].
  - intros q x Hx Hk. rewrite pat_finished. destruct (Nat.eqb_spec q p) as [->|N]; [|exact Hx]. assert (x = r) by congruence. subst x. tauto.
  - apply holds_finished.
  - intros n Tn. right. split; [exact (tight_finished n Tn)|]. change (cnt n S') with (cnt n S). lia.
Qed.
Lemma called_finished n : called S n -> called S' n.
Proof.
  intros C. apply (called_gen (Some p) S S' [MkQ (now S + 0) NORMAL (eid S) (pown r)] n Q); [congruence|exact C| |reflexivity|reflexivity|].
  - rewrite pat_finished. destruct (Nat.eqb_spec 0 p); [congruence|reflexivity].
  - intros q [<-|[]]. right. exists e. split; [exact He|]. rewrite Hr. discriminate.
Qed.
Lemma Ok_finished : Rest S -> Sem (called S') None S' -> Phase None S' -> Ok (end_process p o S).
Proof.
  intros (R1 & R2 & ev0 & R3) Hs Hph. rewrite (end_eq p r o e S Hp He). fold S'. constructor; [exact R1|exact R2|]. exists None.
  split; [apply Que_finished; auto; rewrite Hr; reflexivity|]. split; [eapply Sem_weaken; [exact Hs|intros n Cn; split; [discriminate|exact Cn]]|].
  split; [right; exact Hph|]. unfold Todo. change (todo S') with (todo S). rewrite R3. reflexivity.
Qed.
End Finish.

(** The process goes on at once. *)
Section Move.
Variables (W W' : string -> Prop) (p : nat) (r : prc) (c : code) (ev : nat) (e : evt) (o : outcome) (S : sim).
Hypothesis Q : Que (Some p) S.
Hypothesis H : Sem W (Some p) S.
Hypothesis Hp : proc_at p S = Some r.
Hypothesis He : event_at ev S = Some e.
Let S' := defused ev e o (moved p r c S).

Lemma pat_moved i : proc_at i S' = if Nat.eqb i p then Some (MkPrc (pkind r) (pown r) (ptarget r) c) else proc_at i S.
Proof. unfold S'. destruct o; exact (pat_upd i p _ r S Hp). Qed.
Lemma atrig_moved n : atrig n S' = atrig n S.
Proof. unfold S'. destruct o; [reflexivity|]. exact (atrig_same n ev e (MkEvt (erole e) (evalue e) true (ecbs e)) S He eq_refl). Qed.
Lemma holds_moved : holds S S'.
Proof. unfold S'. destruct o; [apply holds_refl; reflexivity|]. exact (holds_changed ev e (MkEvt (erole e) (evalue e) true (ecbs e)) S He (or_introl eq_refl)). Qed.
Lemma Sem_moved :
  (p = 0 -> mcode c) -> (forall n, dget (extras S) n = Some p -> xcode n c) -> hits p S = 0 \/ soft_code c ->
  match c with KLocal0 _ _ _ | KLocal _ _ _ _ => False | _ => True end ->
  (forall n, busy n c -> atrig n S = true) ->
  (forall l, early S = Some l -> (p = 0 -> c = KProc0 \/ c = KProcPro true) /\ forall n, xcode n c -> (c = KExtra0 n \/ c = KExtraAct n) /\ atrig n S = false) ->
  (forall n, W n -> W' n) -> Sem W' (Some p) S'.
Proof.
  intros H1 H2 H3 H4 H5 H6 H7.
  assert (A1 : exists S1, Sem W (Some p) S1 /\ prs S1 = prs S /\ S' = moved p r c S1 /\ (forall n, atrig n S1 = atrig n S) /\ hits p S1 = hits p S /\ extras S1 = extras S /\ early S1 = early S).
  { unfold S'. destruct o as [v|t]; [exists S; split; [exact H|]; repeat split; auto|]. set (e' := MkEvt (erole e) (evalue e) true (ecbs e)). exists (changed ev e' S).
    assert (Hs : sound e').
    { pose proof (s_vals _ _ _ H ev e He) as X. unfold sound, e' in *. cbn [evalue edefused erole] in *. destruct (evalue e) as [[?|?]|]; auto. destruct X as [X|[_ X]]; auto. }
    split; [exact (Sem_changed W W (Some p) S Q H (fun n X => X) ev e e' He eq_refl eq_refl Hs)|]. repeat split; auto.
    - intros n. apply (atrig_same n ev e); auto.
    - exact (hits_same p S (changed ev e' S) (keeps_changed ev e e' S He eq_refl) (Que_backed _ _ Q) eq_refl). }
  destruct A1 as (S1 & A1 & Ep & -> & At & Hh & Ex & Ea). apply (Sem_weaken W W'); [|exact H7].
  apply (Sem_code W p r (MkPrc (pkind r) (pown r) (ptarget r) c) S1); auto; cbn [pcode].
  - unfold proc_at. rewrite Ep. exact Hp.
  - rewrite Ex. exact H2.
  - rewrite Hh. exact H3.
  - destruct c; try exact I; contradiction.
  - intros n Hb. rewrite At. auto.
  - intros l El. rewrite Ea in El. destruct (H6 l El) as [B1 B2]. split; [exact B1|]. intros n Hx. rewrite At. auto.
Qed.
Lemma Ok_moved : Rest S -> ecbs e = None -> evalue e = Some o -> who S p c -> c <> KEnd -> Sem (fun n => Some p <> Some 0 /\ called S' n) (Some p) S' ->
  ruling (Some p) S' \/ Phase (Some p) S' -> Act p c o S' -> Ok (hand_over p ev (set_prc p (fun r => MkPrc (pkind r) (pown r) (ptarget r) c) S)).
Proof.
  intros (R1 & R2 & ev0 & R3) Hc Hv Hw Hk Hs Hph Ha. rewrite (move_eq p r c ev e o S Hp He Hc Hv), R3. fold S'.
  assert (X1 : dead S' = None /\ hasenv S' = false) by (unfold S'; destruct o; auto). destruct X1 as [X1 X2].
  constructor; [exact X1|exact X2|]. exists (Some p).
  assert (HQ : Que (Some p) S') by (unfold S'; apply Que_defused; [apply Que_moved; auto|exact He]).
  split; [apply (Que_same (Some p) S'); auto|]. split; [|split].
  - apply (Sem_rest (fun n => Some p <> Some 0 /\ called S' n) _ (Some p) S' HQ Hs); auto. exact (s_cnt _ _ _ Hs). exact (s_idle _ _ _ Hs).
  - exact Hph.
  - unfold Todo. cbn [todo set_todo]. split; [reflexivity|]. exists (MkPrc (pkind r) (pown r) (ptarget r) c). split; [|split; [exact Hk|exact Ha]].
    change (proc_at p S' = Some (MkPrc (pkind r) (pown r) (ptarget r) c)). rewrite pat_moved, Nat.eqb_refl. reflexivity.
Qed.
End Move.

(** ** The process of a buffer *)

Definition Lands (p : nat) (x : sim * (nxt + fault)) : Prop :=
  match x with
  | (S', inl (NWait c ev)) => Ok (hand_over p ev (set_prc p (fun r => MkPrc (pkind r) (pown r) (ptarget r) c) S'))
  | (S', inl (NDone v)) => Ok (end_process p (Good v) S')
  | (_, inr t) => exists x, t = TExn x
  end.
Definition count (n : string) (l : list proc) : nat := count_occ string_dec (names_of l) n.
Lemma take_none n l : take_proc n l = None -> count n l = 0.
Proof.
  induction l as [|x l IH]; [reflexivity|]. cbn [take_proc]. unfold count, names_of in *. cbv zeta.
  destruct (String.eqb_spec (match x with PProc => "P" | PReq _ n _ _ _ _ _ => n | PAuto _ n _ _ _ _ => n end) n) as [E|N]; [discriminate|].
  destruct (take_proc n l) as [[? ?]|]; [discriminate|]. intros _. specialize (IH eq_refl).
  destruct x as [|id k ? ? ? ? ?|id k ? ? ? ?]; cbn [flat_map app count_occ]; [exact IH| |]; (destruct (string_dec k n); [contradiction|exact IH]).
Qed.
Lemma take_some n l : forall q l', take_proc n l = Some (q, l') -> q <> PProc -> (forall m, count m l = (if String.eqb m n then 1 else 0) + count m l') /\ (In PProc l -> In PProc l').
Proof.
  induction l as [|x l IH]; [discriminate|]. intros q l'. cbn [take_proc]. unfold count, names_of in *. cbv zeta.
  destruct (String.eqb_spec (match x with PProc => "P" | PReq _ n _ _ _ _ _ => n | PAuto _ n _ _ _ _ => n end) n) as [E|N].
  - intros [= <- <-] Hq. split.
    + intros m. destruct x as [|id k ? ? ? ? ?|id k ? ? ? ?]; [contradiction| |]; cbn in E; cbn [flat_map app count_occ]; destruct (string_dec k m), (String.eqb_spec m n); try congruence; lia.
    + intros [->|Hi]; [contradiction|exact Hi].
  - destruct (take_proc n l) as [[q0 l0]|]; [|discriminate]. intros [= <- <-] Hq. destruct (IH _ _ eq_refl Hq) as [A B]. split.
    + intros m. destruct x as [|id k ? ? ? ? ?|id k ? ? ? ?]; cbn [flat_map app count_occ]; [exact (A m)| |]; destruct (string_dec k m); rewrite (A m); lia.
    + intros [->|Hi]; [left; reflexivity|right; auto].
Qed.
Lemma extra_idle O n ev S : take_proc n (get_started S) = None -> dget (acts S) n = Some ev ->
  extra_loop O n S = (set_inter (ddel (inter S) n) S, inl (NWait (KExtraAct n) ev)).
Proof. intros E A. unfold extra_loop, bind, get. rewrite E. unfold upd_, act_of, bind, get. cbn [acts set_inter]. rewrite A. reflexivity. Qed.
Definition taken (O : oracle) (n : string) (q : proc) (l : list proc) (ev : nat) (e : evt) (S : sim) : sim :=
  spawned (KLocal0 false n (proc_gen O q)) (if trig S ev then put_started l S else fired ev e (put_started l S)).
Lemma extra_takes O n q l ev e S : take_proc n (get_started S) = Some (q, l) -> q <> PProc -> dget (acts S) n = Some ev -> event_at ev S = Some e ->
  extra_loop O n S = (taken O n q l ev e S, inl (NWait (KExtraPro n (List.length (prs S))) (List.length (evs S)))).
Proof.
  intros E Hq A He. set (S1 := put_started l S).
  assert (A1 : dget (acts S1) n = Some ev) by (unfold S1, put_started; destruct (early S); exact A).
  assert (He1 : event_at ev S1 = Some e) by (unfold S1, put_started; destruct (early S); exact He).
  assert (L1 : List.length (prs S1) = List.length (prs S) /\ List.length (evs S1) = List.length (evs S)) by (unfold S1, put_started; destruct (early S); auto).
  destruct L1 as [L1 L2].
  assert (F : forall S2, List.length (prs S2) = List.length (prs S) -> List.length (evs S2) = List.length (evs S) ->
    (let! pro := spawn (KLocal0 false n (proc_gen O q)) in wait_for (KExtraPro n pro) pro) S2 = (spawned (KLocal0 false n (proc_gen O q)) S2, inl (NWait (KExtraPro n (List.length (prs S))) (List.length (evs S))))).
  { intros S2 P1 P2. unfold bind. rewrite spawn_eq. unfold wait_for, bind, get, ret, own_event. change (nth_error (prs ?x) ?y) with (proc_at y x). rewrite pat_spawned, Nat.eqb_refl, P1, P2. reflexivity. }
  assert (G : extra_loop O n S = ((if trig S1 ev then ret tt else succeed ev) ;! (let! pro := spawn (KLocal0 false n (proc_gen O q)) in wait_for (KExtraPro n pro) pro)) S1).
  { unfold extra_loop, bind at 1, get at 1. rewrite E. destruct q; [contradiction| |]; unfold bind at 1, upd_; fold S1; unfold act_of; unfold bind at 1 2, get at 1; rewrite A1; unfold bind at 1, get; reflexivity. }
  rewrite G. assert (Et : trig S1 ev = trig S ev) by (unfold trig; rewrite He, He1; reflexivity). rewrite Et. unfold taken. fold S1. destruct (trig S ev) eqn:Tr.
  - unfold bind at 1, ret. apply F; auto.
  - unfold trig, triggered in Tr. rewrite He in Tr. destruct (evalue e) eqn:V; [discriminate|]. unfold bind at 1. rewrite (succeed_eq ev e S1 He1 V). apply F; [exact L1|]. cbn [fired queued changed set_queue set_evs evs]. rewrite upd_length. exact L2.
Qed.
(** Nobody else waits for the event of a buffer. *)
Lemma act_free p n ev e S : Que (Some p) S -> dget (extras S) n = Some p -> dget (acts S) n = Some ev -> event_at ev S = Some e ->
  (ecbs e = None /\ evalue e <> None) \/ ecbs e = Some [].
Proof.
  intros Q Hx Ha He. destruct (q_acts _ _ Q n ev Ha) as (x & Hx' & R). assert (x = e) by congruence. subst x.
  destruct (q_cbs _ _ Q ev e He) as [C|[C|[(q & x & C & D & E & F & G)|(q & C & D)]]]; auto; [exfalso|congruence].
  destruct (q_wait _ _ Q q x E D F) as (y & Hy & _ & Ai). rewrite G in Hy. assert (y = e) by congruence. subst y. rewrite G in Ai. pose proof (q_who _ _ Q q x E) as Wx.
  destruct (pcode x); cbn [aims who] in *; try contradiction; try solve [destruct Ai; congruence].
  - apply (q_apart _ _ Q n). congruence.
  - assert (E1 : name = n) by (apply (q_inj _ _ Q _ _ ev); congruence). congruence.
Qed.
Lemma xcode_inj n m c : xcode n c -> xcode m c -> n = m.
Proof. destruct c; cbn; intros; try contradiction; congruence. Qed.
Lemma xcode_who p n r S a : Que a S -> proc_at p S = Some r -> xcode n (pcode r) -> dget (extras S) n = Some p.
Proof. intros Q Hp Hx. pose proof (q_who _ _ Q p r Hp) as W. destruct (pcode r); try contradiction; cbn in Hx, W; congruence. Qed.
Lemma xcode_nochief n c : xcode n c -> ~ chief c /\ c <> KEnd.
Proof. destruct c as [| | | | | | | |[|] ? ?|[|] ? ? ?| | | | |]; cbn; try contradiction; split; auto; discriminate. Qed.
Lemma Phase_fired a ev e S : Phase a S -> event_at ev S = Some e -> evalue e = None -> Phase a (fired ev e S).
Proof.
  intros Ph He Hv. apply (Phase_easy a S (fired ev e S) Ph); auto.
  - exact (holds_changed ev e (valued (Good XUnit) e) S He (or_intror Hv)).
  - intros n Hn. destruct (atrig n S) eqn:E; [|reflexivity]. rewrite (atrig_mono S n ev e He E) in Hn. discriminate.
Qed.
Lemma Phase_spawned a b a' n g S : Que a' S -> Phase a S -> Phase a (spawned (KLocal0 b n g) S).
Proof.
  intros Q Ph. apply (Phase_easy a S _ Ph); auto.
  - intros p r. apply pat_spawned_old.
  - intros p r Hr. rewrite pat_spawned in Hr. destruct (Nat.eqb _ _); [injection Hr as <-; right; cbn; eauto|left; exact Hr].
  - apply holds_spawned.
  - intros m. rewrite (atrig_spawned _ _ _ _ Q). auto.
Qed.

Lemma after_extra O p n r S : Going p S -> p <> 0 -> proc_at p S = Some r -> xcode n (pcode r) -> Phase (Some p) S ->
  hits p S = 0 \/ (early S = None /\ hits p S + 1 <= cnt n S) -> early S = None \/ pcode r = KExtra0 n -> Lands p (extra_loop O n S).
Proof.
  intros G N0 Hp Hx Ph Hh Hea. pose proof (g_que _ _ G) as Q. pose proof (g_sem _ _ G) as H.
  pose proof (xcode_who _ _ _ _ _ Q Hp Hx) as Wx. destruct (xcode_nochief _ _ Hx) as [Nc Ne].
  destruct (s_ext _ _ _ H n p Wx) as (r' & ev & Hr' & _ & Ha). destruct (q_acts _ _ Q n ev Ha) as (e & He & Re).
  assert (Xo : forall m, dget (extras S) m = Some p -> m = n).
  { intros m Hm. destruct (s_ext _ _ _ H m p Hm) as (x & ? & X1 & X2 & _). assert (x = r) by congruence. subst x. exact (xcode_inj _ _ _ X2 Hx). }
  destruct (take_proc n (get_started S)) as [[q l]|] eqn:T.
  - destruct (early S) as [l0|] eqn:Ee.
    { destruct (s_early _ _ _ H l0 Ee) as (-> & _). unfold get_started in T. rewrite Ee in T. discriminate. }
    assert (Gs : get_started S = sprocs (ss S)) by (unfold get_started; rewrite Ee; reflexivity).
    assert (Dq : q = PProc \/ q <> PProc) by (destruct q; [left; reflexivity|right; discriminate|right; discriminate]). destruct Dq as [->|Hq].
    { unfold extra_loop, bind, get. rewrite T. cbn. eauto. }
    rewrite (extra_takes O n q l ev e S T Hq Ha He). cbn [Lands].
    set (S1 := put_started l S). assert (E1 : S1 = set_ss (set_procs l (snext (ss S)) (ss S)) S) by (unfold S1, put_started; rewrite Ee; reflexivity).
    rewrite Gs in T. destruct (take_some _ _ _ _ T Hq) as [Tc Tp].
    assert (C1 : forall m, cnt m S = (if String.eqb m n then 1 else 0) + cnt m S1) by (intros m; rewrite E1; exact (Tc m)).
    assert (Same : forall q, proc_at q S1 = proc_at q S) by (intros; rewrite E1; reflexivity).
    assert (G1 : Going p S1).
    { rewrite E1 in *. apply (Going_rest p S); auto; [exact (g_rest _ _ G)|].
      intros m i Hm. pose proof (C1 m) as C2. pose proof (s_cnt _ _ _ H m i Hm) as C3. destruct (String.eqb_spec m n) as [E|N]; [|lia]. subst m. assert (i = p) by congruence. subst i. destruct Hh as [Hh|[_ Hh]]; lia. }
    assert (P1 : Phase (Some p) S1).
    { apply (Phase_gen (Some p) (Some p) S S1 Ph); auto.
      - intros i x Hi _. rewrite Same. exact Hi.
      - apply holds_refl. rewrite E1. reflexivity.
      - intros Hin. rewrite E1. cbn. exact (Tp Hin).
      - intros m Tm. right. split; [rewrite E1 in Tm; exact Tm|]. specialize (C1 m). lia. }
    assert (He1 : event_at ev S1 = Some e) by (rewrite E1; exact He). assert (Ha1 : dget (acts S1) n = Some ev) by (rewrite E1; exact Ha).
    assert (X1 : dget (extras S1) n = Some p) by (rewrite E1; exact Wx). assert (Ee1 : early S1 = None) by (rewrite E1; exact Ee).
    assert (Xo1 : forall m, dget (extras S1) m = Some p -> m = n) by (rewrite E1; exact Xo).
    assert (L1 : List.length (evs S1) = List.length (evs S) /\ List.length (prs S1) = List.length (prs S)) by (rewrite E1; auto).
    unfold taken. fold S1. assert (Et : trig S ev = trig S1 ev) by (rewrite E1; reflexivity). rewrite Et.
    assert (Hp1 : proc_at p S1 = Some r) by (rewrite Same; exact Hp).
    assert (Hh1 : hits p S1 = hits p S) by (apply hits_same; [intros i x Hi; exists x; rewrite E1; auto|exact (Que_backed _ _ Q)|rewrite E1; reflexivity]).
    clearbody S1. clear Tc Tp T C1 G H Q Ph E1 Same. destruct L1 as [L1 L2]. rewrite <- L1, <- L2.
    set (S2 := if trig S1 ev then S1 else fired ev e S1).
    assert (G2 : Going p S2 /\ Phase (Some p) S2 /\ proc_at p S2 = Some r /\ atrig n S2 = true /\ (forall m, dget (extras S2) m = Some p -> m = n) /\ dget (extras S2) n = Some p /\ List.length (evs S2) = List.length (evs S1) /\
      List.length (prs S2) = List.length (prs S1) /\ early S2 = None).
    { unfold S2. destruct (trig S1 ev) eqn:Tr.
      - repeat (split; [auto; fail|]); try (split; [unfold atrig; rewrite Ha1; exact Tr|]); repeat split; auto.
      - assert (V : evalue e = None) by (unfold trig, triggered in Tr; rewrite He1 in Tr; destruct (evalue e); [discriminate|reflexivity]).
        split.
        { apply Going_fired; auto. intros i x m A B C D. assert (m = n) by exact (q_inj _ _ (g_que _ _ G1) _ _ _ D Ha1). subst m.
          assert (dget (extras S1) n = Some i) by (apply (xcode_who i n x S1 (Some p) (g_que _ _ G1) A); rewrite B; reflexivity). congruence. }
        split; [apply Phase_fired; auto|]. split; [exact Hp1|]. split.
        { unfold atrig. change (acts (fired ev e S1)) with (acts S1). rewrite Ha1. unfold trig. change (event_at ev (fired ev e S1)) with (event_at ev (changed ev (valued (Good XUnit) e) S1)). rewrite (at_changed _ _ _ _ _ He1), Nat.eqb_refl. reflexivity. }
        repeat split; auto. cbn. apply upd_length. }
    clearbody S2. destruct G2 as (G2 & P2 & Hp2 & At2 & Xo2 & X2 & L3 & L4 & Ee2). clear G1 P1 Hp1 Xo1 X1 Ee1 He1 Ha1. rewrite <- L3, <- L4.
    set (c3 := KLocal0 false n (proc_gen O q)). set (S3 := spawned c3 S2).
    assert (G3 : Going p S3) by (apply Going_spawned; auto; [exact (pat_old _ _ _ Hp2)|apply tame_proc]).
    assert (P3 : Phase (Some p) S3) by (eapply Phase_spawned; [exact (g_que _ _ G2)|exact P2]).
    assert (Hp3 : proc_at p S3 = Some r) by (apply pat_spawned_old; exact Hp2).
    assert (He3 : event_at (List.length (evs S2)) S3 = Some (MkEvt (ROwn (List.length (prs S2))) None false (Some []))).
    { unfold S3. rewrite at_spawned, Nat.eqb_refl. destruct (Nat.eqb_spec (List.length (evs S2)) (Datatypes.S (List.length (evs S2)))); [lia|reflexivity]. }
    assert (At3 : atrig n S3 = true) by (unfold S3; rewrite (atrig_spawned _ _ _ _ (g_que _ _ G2)); exact At2).
    set (c := KExtraPro n (List.length (prs S2))). set (e3 := MkEvt (ROwn (List.length (prs S2))) None false (Some [])) in *.
    apply (Ok_parked p r c (List.length (evs S2)) e3 S3 (g_que _ _ G3) Hp3 He3).
    + exact (g_rest _ _ G3).
    + reflexivity.
    + discriminate.
    + exact X2.
    + exists (List.length (prs S2)). reflexivity.
    + apply (Sem_parked (called S3) _ p r c _ e3 S3 (g_que _ _ G3) (g_sem _ _ G3) Hp3 He3).
      * intros E. contradiction.
      * intros m Hm. cbn. symmetry. apply Xo2. exact Hm.
      * right. exact I.
      * exact I.
      * intros m Hm. cbn in Hm. subst m. exact At3.
      * intros l0 E. change (early S3) with (early S2) in E. congruence.
      * intros E. contradiction.
      * discriminate.
      * intros m Cm. apply (called_gen (Some p) S3 _ [] m (g_que _ _ G3)); [congruence|exact Cm| |reflexivity|cbn; rewrite app_nil_r; reflexivity|intros ? []].
        rewrite (pat_parked p r c _ e3 S3 Hp3). destruct (Nat.eqb_spec 0 p); [congruence|reflexivity].
    + apply (Phase_parked p r c _ e3 S3 Hp3 He3 P3 N0 Nc Ne). intros m [E|[E _]]; discriminate.
  - rewrite (extra_idle O n ev S T Ha). cbn [Lands]. set (S1 := set_inter (ddel (inter S) n) S).
    assert (Z : hits p S = 0).
    { destruct Hh as [Hh|[E Hh]]; [exact Hh|]. unfold get_started in T. rewrite E in T. apply take_none in T. unfold cnt in Hh. unfold count in T. lia. }
    assert (G1 : Going p S1).
    { apply (Going_rest p S); auto; [exact (g_rest _ _ G)|exact (s_cnt _ _ _ H)|]. intros i x m _ _ _ _. cbn [S1 inter set_inter]. rewrite dget_ddel. destruct (String.eqb m n); auto. }
    assert (P1 : Phase (Some p) S1) by exact Ph. assert (Hp1 : proc_at p S1 = Some r) by exact Hp. assert (He1 : event_at ev S1 = Some e) by exact He.
    assert (Ear : forall l, early S1 = Some l -> atrig n S = false).
    { intros l El. destruct (s_early _ _ _ H l El) as (_ & _ & X). apply (X p r n Hp Hx). }
    assert (Tg : evalue e <> None -> early S1 = None).
    { intros V. destruct (early S1) as [l|] eqn:El; [|reflexivity]. specialize (Ear l eq_refl). unfold atrig in Ear. rewrite Ha in Ear. unfold trig, triggered in Ear. rewrite He in Ear. destruct (evalue e); [discriminate|contradiction]. }
    assert (Cz : early S = None -> cnt n S = 0) by (intros E; unfold get_started in T; rewrite E in T; exact (take_none _ _ T)).
    destruct (act_free p n ev e S Q Wx Ha He) as [[Ce Ve]|Ce].
    + destruct (evalue e) as [o|] eqn:Vo; [|contradiction]. set (S' := defused ev e o (moved p r (KExtraAct n) S1)).
      assert (Pm : forall i, proc_at i S' = if Nat.eqb i p then Some (MkPrc (pkind r) (pown r) (ptarget r) (KExtraAct n)) else proc_at i S1) by (intros i; exact (pat_moved p r (KExtraAct n) ev e o S1 Hp1 i)).
      assert (P0 : proc_at 0 S' = proc_at 0 S1) by (rewrite Pm; destruct (Nat.eqb_spec 0 p); [congruence|reflexivity]).
      apply (Ok_moved p r (KExtraAct n) ev e o S1 (g_que _ _ G1) Hp1 He1); auto.
      * exact (g_rest _ _ G1).
      * discriminate.
      * apply (Sem_moved (called S1) _ p r (KExtraAct n) ev e o S1 (g_que _ _ G1) (g_sem _ _ G1) Hp1 He1).
        -- intros E. contradiction.
        -- intros m Hm. cbn. symmetry. apply Xo. exact Hm.
        -- left. exact Z.
        -- exact I.
        -- intros m [].
        -- intros l El. split; [intros E; contradiction|]. intros m Hm. cbn in Hm. subst m. split; [auto|exact (Ear l El)].
        -- intros m Cm. split; [congruence|]. apply (called_gen (Some p) S1 S' [] m (g_que _ _ G1)); [congruence|exact Cm|exact P0| | |intros ? []]; unfold S'; destruct o; auto; cbn; rewrite app_nil_r; reflexivity.
      * right. apply (Phase_gen (Some p) (Some p) S1 S' P1 P0).
        -- intros i x Hi Hk. rewrite Pm. destruct (Nat.eqb_spec i p) as [->|N]; [|exact Hi]. assert (x = r) by congruence. subst x. tauto.
        -- exact (holds_moved p r (KExtraAct n) ev e o S1 He1).
        -- unfold S'. destruct o; auto.
        -- intros m (i & x & Hi & Hk). right. replace (cnt m S') with (cnt m S1) by (unfold S'; destruct o; reflexivity). split; [|lia].
           unfold S' in Hk. rewrite (atrig_moved p r (KExtraAct n) ev e o S1 He1) in Hk. rewrite Pm in Hi. destruct (Nat.eqb_spec i p) as [->|N]; [|exists i, x; auto].
           injection Hi as <-. cbn [pcode] in Hk. destruct Hk as [Hk|(_ & Hk & _)]; [discriminate|]. elim Hk. reflexivity.
      * destruct o as [v|t]; cbn [Act].
        -- apply Tg. discriminate.
        -- pose proof (s_vals _ _ _ H ev e He) as X. unfold sound in X. rewrite Vo in X. destruct X as [(x & ->)|(_ & i & X)]; [exact I|congruence].
    + apply (Ok_parked p r (KExtraAct n) ev e S1 (g_que _ _ G1) Hp1 He1); auto.
      * exact (g_rest _ _ G1).
      * discriminate.
      * apply (Sem_parked (called S1) _ p r (KExtraAct n) ev e S1 (g_que _ _ G1) (g_sem _ _ G1) Hp1 He1).
        -- intros E. contradiction.
        -- intros m Hm. cbn. symmetry. apply Xo. exact Hm.
        -- left. exact Z.
        -- exact I.
        -- intros m [].
        -- intros l El. split; [intros E; contradiction|]. intros m Hm. cbn in Hm. subst m. split; [auto|exact (Ear l El)].
        -- intros E. contradiction.
        -- intros m [= <-] _. left. cbn. rewrite dget_ddel, String.eqb_refl. reflexivity.
        -- intros m Cm. apply (called_gen (Some p) S1 _ [] m (g_que _ _ G1)); [congruence|exact Cm| |reflexivity|cbn; rewrite app_nil_r; reflexivity|intros ? []].
           rewrite (pat_parked p r (KExtraAct n) _ e S1 Hp1). destruct (Nat.eqb_spec 0 p); [congruence|reflexivity].
      * apply (Phase_parked p r (KExtraAct n) _ e S1 Hp1 He1 P1 N0 Nc Ne). intros m [E|[[= <-] Am]]; [discriminate|].
        destruct Hea as [Ea|Ea]; [left; exact (Cz Ea)|]. right. exists p, r. auto.
Qed.
Lemma hits_hard W a p r S : Sem W a S -> proc_at p S = Some r -> (forall q, ~ hittable a S p q (pcode r)) -> hits p S = 0.
Proof. intros H Hp Hn. apply hits_zero. intros q Hq Hr. destruct (s_hit _ _ _ H q p Hq Hr) as (x & A & B). assert (x = r) by congruence. subst x. exact (Hn q B). Qed.
Lemma hits_struck p i S : backed S -> p <> i -> hits p (struck i S) = hits p S.
Proof.
  intros B N. rewrite (hits_snoc p S (struck i S) _ (keeps_struck i S) B eq_refl). unfold is_int. cbn [qev].
  change (event_at (List.length (evs S)) (struck i S)) with (event_at (List.length (evs S)) (added (MkEvt (RInt i) (Some (Bad TInterrupt)) true (Some [CInt i])) S)). rewrite at_added, Nat.eqb_refl. cbn [erole].
  destruct (Nat.eqb_spec i p); [congruence|lia].
Qed.
Lemma Phase_struck a a' i S : Que a' S -> Phase a S -> Phase a (struck i S).
Proof. intros Q Ph. apply (Phase_easy a S _ Ph); auto. - apply holds_added. - intros n. rewrite (atrig_struck _ _ _ _ Q). auto. Qed.

Lemma go_cont O p n pro g S : go_on O p (KExtraPro n pro) (Good (XCont g)) S = (spawned (KLocal0 false n g) S, inl (NWait (KExtraCont n (List.length (prs S))) (List.length (evs S)))).
Proof.
  cbn [go_on]. unfold bind. rewrite spawn_eq. unfold wait_for, bind, get, ret, own_event. change (nth_error (prs ?x) ?y) with (proc_at y x). rewrite pat_spawned, Nat.eqb_refl. reflexivity.
Qed.
Lemma extra_cont O p n pro r g S : Going p S -> p <> 0 -> proc_at p S = Some r -> pcode r = KExtraPro n pro -> Phase (Some p) S -> free tame g -> Lands p (go_on O p (KExtraPro n pro) (Good (XCont g)) S).
Proof.
  intros G N0 Hp Hc Ph Hg. rewrite go_cont. cbn [Lands]. pose proof (g_que _ _ G) as Q. pose proof (g_sem _ _ G) as H.
  assert (Hx : xcode n (pcode r)) by (rewrite Hc; reflexivity). pose proof (xcode_who _ _ _ _ _ Q Hp Hx) as Wx. destruct (xcode_nochief _ _ Hx) as [Nc Ne].
  assert (Hb : busy n (pcode r)) by (rewrite Hc; reflexivity).
  set (S3 := spawned (KLocal0 false n g) S).
  assert (G3 : Going p S3) by (apply Going_spawned; auto; exact (pat_old _ _ _ Hp)).
  assert (P3 : Phase (Some p) S3) by (eapply Phase_spawned; [exact Q|exact Ph]).
  assert (Hp3 : proc_at p S3 = Some r) by (apply pat_spawned_old; exact Hp).
  assert (He3 : event_at (List.length (evs S)) S3 = Some (MkEvt (ROwn (List.length (prs S))) None false (Some []))).
  { unfold S3. rewrite at_spawned, Nat.eqb_refl. destruct (Nat.eqb_spec (List.length (evs S)) (Datatypes.S (List.length (evs S)))); [lia|reflexivity]. }
  assert (At3 : atrig n S3 = true) by exact (s_busy _ _ _ (g_sem _ _ G3) p r n Hp3 Hb).
  set (c := KExtraCont n (List.length (prs S))). set (e3 := MkEvt (ROwn (List.length (prs S))) None false (Some [])) in *.
  apply (Ok_parked p r c (List.length (evs S)) e3 S3 (g_que _ _ G3) Hp3 He3).
  + exact (g_rest _ _ G3).
  + reflexivity.
  + discriminate.
  + exact Wx.
  + exists (List.length (prs S)). reflexivity.
  + apply (Sem_parked (called S3) _ p r c _ e3 S3 (g_que _ _ G3) (g_sem _ _ G3) Hp3 He3).
    * intros E. contradiction.
    * intros m Hm. cbn. destruct (s_ext _ _ _ H m p Hm) as (x & ? & X1 & X2 & _). assert (x = r) by congruence. subst x. symmetry. exact (xcode_inj _ _ _ X2 Hx).
    * right. exact I.
    * exact I.
    * intros m Hm. cbn in Hm. subst m. exact At3.
    * intros l0 E. destruct (s_early _ _ _ (g_sem _ _ G3) l0 E) as (_ & _ & X). destruct (X p r n Hp3 Hx) as [[X1|X1] _]; congruence.
    * intros E. contradiction.
    * discriminate.
    * intros m Cm. apply (called_gen (Some p) S3 _ [] m (g_que _ _ G3)); [congruence|exact Cm| |reflexivity|cbn; rewrite app_nil_r; reflexivity|intros ? []].
      rewrite (pat_parked p r c _ e3 S3 Hp3). destruct (Nat.eqb_spec 0 p); [congruence|reflexivity].
  + apply (Phase_parked p r c _ e3 S3 Hp3 He3 P3 N0 Nc Ne). intros m [E|[E _]]; discriminate.
Qed.

Lemma extra_ok O p n r o S : Inv S -> Going p S -> proc_at p S = Some r -> xcode n (pcode r) -> Phase (Some p) S -> Act p (pcode r) o S ->
  Lands p (go_on O p (pcode r) o S).
Proof.
  intros HI G Hp Hx Ph Ha. pose proof (g_que _ _ G) as Q. pose proof (g_sem _ _ G) as H.
  assert (N0 : p <> 0).
  { intros ->. destruct (s_main _ _ _ H) as (x & A & B). assert (x = r) by congruence. subst x. destruct (pcode r); contradiction. }
  assert (Eb : busy n (pcode r) -> early S = None).
  { intros Hb. destruct (early S) as [l|] eqn:El; [|reflexivity]. destruct (s_early _ _ _ H l El) as (_ & _ & X). destruct (X p r n Hp Hx) as [[X1|X1] _]; rewrite X1 in Hb; contradiction. }
  assert (Hard : (forall q, ~ hittable (Some p) S p q (pcode r)) -> hits p S = 0) by exact (hits_hard _ _ _ _ _ H Hp).
  assert (Bad_ : forall t, o = Bad t -> (t = TInterrupt -> busy n (pcode r)) /\ t <> TRuntime).
  { intros t ->. cbn [Act] in Ha. destruct t as [x| |]; [split; discriminate|contradiction|]. split; [intros _|discriminate]. destruct (pcode r) as [| | | | | | | |[|] ? ?|[|] ? ? ?| | | | |]; try contradiction; exact Hx. }
  destruct (pcode r) as [| | | |m|m|m pro|m pro| | | | | | |] eqn:Hc; try contradiction; cbn in Hx; subst m.
  - destruct o as [v|t]; [|destruct (Bad_ t eq_refl) as [B1 B2]; destruct t as [x| |]; [cbn; eauto|contradiction|elim (B1 eq_refl)]].
    apply (after_extra O p n r S G N0 Hp); [rewrite Hc; reflexivity|exact Ph|left; apply Hard; intros q []|right; exact Hc].
  - destruct o as [v|t]; [|destruct (Bad_ t eq_refl) as [B1 B2]; destruct t as [x| |]; [cbn; eauto|contradiction|elim (B1 eq_refl)]].
    cbn [Act] in Ha. change (go_on O p (KExtraAct n) (Good v) S) with (extra_loop O n (renewed n S)).
    assert (G1 : Going p (renewed n S)) by (apply (Going_renewed p r n S); auto).
    apply (after_extra O p n r (renewed n S) G1 N0 Hp); [rewrite Hc; reflexivity| |left|left; exact Ha].
    + assert (Wx : dget (extras S) n = Some p) by (apply (xcode_who p n r S _ Q Hp); rewrite Hc; reflexivity).
      apply (Phase_gen (Some p) (Some p) S (renewed n S) Ph); auto; [exact (holds_added act0 S)|]. intros m (i & x & Hi & Hk). right. split; [|change (cnt m (renewed n S)) with (cnt m S); lia].
      exists i, x. split; [exact Hi|]. destruct Hk as [Hk|(A & B & C)]; [auto|]. right. split; [exact A|]. split; [exact B|]. rewrite (atrig_renewed _ _ _ _ Q) in C.
      destruct (String.eqb_spec m n) as [->|N]; [|exact C]. elim B. f_equal. assert (dget (extras S) n = Some i) by (apply (xcode_who i n x S _ Q Hi); rewrite A; reflexivity). congruence.
    + rewrite (hits_same p S (renewed n S) (keeps_added act0 S) (Que_backed _ _ Q) eq_refl). apply Hard. intros q [].
  - assert (Ea : early S = None) by (apply Eb; reflexivity). destruct o as [v|t].
    + cbn [Act] in Ha. destruct Ha as [Ha Hg]. destruct v as [| |g]; [| |apply (extra_cont O p n pro r g S G N0 Hp Hc Ph (Hg g eq_refl))];
        (apply (after_extra O p n r S G N0 Hp); auto; rewrite Hc; reflexivity).
    + destruct (Bad_ t eq_refl) as [B1 B2]; destruct t as [x| |]; [cbn; eauto|contradiction|]. clear B1 B2. cbn [Act] in Ha.
      pose proof (i_fits _ HI p r Hp) as F. rewrite Hc in F. cbn [fits] in F. destruct F as (rp & Hrp & Kp & Op).
      destruct (i_own _ HI pro rp Hrp) as (ep & Hep & Rep & Vep). destruct (i_kind _ HI pro rp Hrp) as [Kc _].
      assert (Npro : p <> pro).
      { intros <-. assert (rp = r) by congruence. subst rp. destruct (i_kind _ HI p r Hp) as [[X|X] _]; rewrite Hc in X; [discriminate|]. rewrite Kp in X. discriminate. }
      assert (En : ended pro S = trig S (pown rp)) by (unfold ended, own_event; change (nth_error (prs S) pro) with (proc_at pro S); rewrite Hrp; reflexivity).
      destruct (ended pro S) eqn:Ed.
      * replace (go_on O p (KExtraPro n pro) (Bad TInterrupt) S) with (extra_loop O n S) by (cbn [go_on]; unfold bind, get; rewrite Ed; reflexivity).
        apply (after_extra O p n r S G N0 Hp); auto. rewrite Hc. reflexivity.
      * replace (go_on O p (KExtraPro n pro) (Bad TInterrupt) S) with (extra_loop O n (struck pro S)) by (cbn [go_on]; unfold bind at 1 2, get at 1; rewrite Ed, (interrupt_eq p pro S Ed Npro); reflexivity).
        assert (Nk : pcode rp <> KEnd) by (apply Vep; unfold trig, triggered in En; rewrite Hep in En; destruct (evalue ep); [discriminate|reflexivity]).
        destruct Kc as [Kc|Kc]; [contradiction|]. rewrite Kp in Kc.
        assert (G1 : Going p (struck pro S)).
        { apply (Going_struck p pro rp S G N0 Hrp).
          - destruct (pcode rp) as [| | | | | | | |b m g|b m e0 g| | | | |] eqn:Hcp; try discriminate; injection Kc as <- <-; [right|left; exact I].
            exists n, g. destruct (q_wait _ _ Q pro rp Hrp) as (x & Hx & _ & Ai); [congruence|rewrite Hcp; discriminate|]. rewrite Hcp in Ai. cbn [aims] in Ai. destruct Ai as (R & q & Iq & Eq).
            exists q. split; [reflexivity|]. split; [exact Iq|]. exists x. rewrite Eq. auto.
          - intros m Hm. exfalso. destruct (s_ext _ _ _ H m pro Hm) as (x & ? & X1 & X2 & _). assert (x = rp) by congruence. subst x. destruct (pcode rp); try contradiction; discriminate. }
        apply (after_extra O p n r (struck pro S) G1 N0 Hp); [rewrite Hc; reflexivity|eapply Phase_struck; eauto|right|left; exact Ea]. split; [exact Ea|].
        rewrite (hits_struck p pro S (Que_backed _ _ Q) Npro). exact Ha.
  - assert (Ea : early S = None) by (apply Eb; reflexivity). destruct o as [v|t].
    + cbn [Act] in Ha. replace (go_on O p (KExtraCont n pro) (Good v) S) with (extra_loop O n S) by reflexivity. apply (after_extra O p n r S G N0 Hp); auto; rewrite Hc; reflexivity.
    + destruct (Bad_ t eq_refl) as [B1 B2]; destruct t as [x| |]; [cbn; eauto|contradiction|]. cbn [Act] in Ha.
      replace (go_on O p (KExtraCont n pro) (Bad TInterrupt) S) with (extra_loop O n S) by reflexivity. apply (after_extra O p n r S G N0 Hp); auto; rewrite Hc; reflexivity.
Qed.

(** ** The processes of the modules and of the rules *)

Definition LandsL (p : nat) (x : sim * (nxt + fault)) : Prop :=
  Lands p x /\ match x with (S', inr t) => Ok (end_process p (Bad t) S') | _ => True end.
(** A process [p] that carries out a generator: [b], the one of the rules. *)
Record Local (p : nat) (b : bool) (r : prc) (S : sim) : Prop := MkLocal {
  l_going : Going p S;
  l_not : p <> 0;
  l_at : proc_at p S = Some r;
  l_ext : forall m, dget (extras S) m <> Some p;
  l_live : pcode r <> KEnd;
  l_own : exists e, event_at (pown r) S = Some e /\ erole e = ROwn p /\ evalue e = None;
  l_chief : if b then chief (pcode r) /\ exists r0 f, proc_at 0 S = Some r0 /\ pcode r0 = KProcPro f /\ ptarget r0 = pown r else ~ chief (pcode r);
  l_phase : if b then True else Phase (Some p) S }.
Lemma called_parked p r c ev e S m : Que (Some p) S -> p <> 0 -> proc_at p S = Some r -> called S m -> called (parked p r c ev e S) m.
Proof.
  intros Q N0 Hp Cm. apply (called_gen (Some p) S _ [] m Q); [congruence|exact Cm| |reflexivity|cbn; rewrite app_nil_r; reflexivity|intros ? []].
  rewrite (pat_parked p r c ev e S Hp). destruct (Nat.eqb_spec 0 p); [congruence|reflexivity].
Qed.
Lemma local_end p b r o S : Local p b r S -> (match o with Bad t => exists x, t = TExn x | Good (XCont g) => free tame g | _ => True end) ->
  (if b then (exists x, o = Bad (TExn x)) \/ over (Some p) S else True) -> Ok (end_process p o S).
Proof.
  intros [G N0 Hp Hx Hk (e & He & Re & Ve) Hm Ph] Ho Hov. pose proof (g_que _ _ G) as Q. pose proof (g_sem _ _ G) as H.
  assert (Hs : sound (valued o e)) by (unfold sound; cbn [valued evalue]; destruct o as [[| |g]|t]; auto).
  apply (Ok_finished p r o e S Q Hp He Re (g_rest _ _ G)).
  - apply (Sem_finished (called S) _ p r o e S Q H Hp He N0 Re Hx Hs). intros n. apply (called_finished p r o e S Q Hp He N0 Re).
  - destruct b.
    + destruct Hm as (_ & r0 & f & P0 & C0 & T0). exists r0. rewrite (pat_finished p r o e S Hp). destruct (Nat.eqb_spec 0 p) as [|_]; [congruence|]. split; [exact P0|]. rewrite C0.
      exists p. eexists. rewrite (pat_finished p r o e S Hp), Nat.eqb_refl. split; [reflexivity|]. split; [symmetry; exact T0|]. cbn [pcode pown].
      destruct Hov as [(x & ->)|Hov]; [left|right].
      * eexists. exists x. rewrite (at_finished p r (Bad (TExn x)) e S He), Nat.eqb_refl. split; reflexivity.
      * assert (T : forall n, tight None n (finished p r o e S) -> tight (Some p) n S) by (intros n; apply (tight_finished p r o e S Q Hp He Re)).
        destruct Hov as [[A B]|A]; [left; split; [exact A|]|right]; intros n Tn; [exact (B n (T n Tn))|exact (A n (T n Tn))].
    + apply (Phase_finished p r o e S Q Hp He N0 Re Ve Ph Hm Hk).
Qed.
Lemma local_wait p b r n e k d S : Local p b r S -> (0 <= d)%Z -> (if b then flow (Some p) S k else free tame k) ->
  Ok (hand_over p (List.length (evs S)) (set_prc p (fun r => MkPrc (pkind r) (pown r) (ptarget r) (KLocal b n e k)) (timed d S))).
Proof.
  intros [G N0 Hp Hx Hk Ho Hm Ph] Hd Hf. assert (G1 : Going p (timed d S)) by (apply Going_timed; auto).
  set (S1 := timed d S) in *. set (ev := List.length (evs S)). set (x := MkEvt (RTime (now S + d)) (Some (Good XUnit)) false (Some [])).
  assert (He : event_at ev S1 = Some x) by (unfold S1; change (event_at ev (timed d S)) with (event_at ev (added x S)); rewrite at_added; unfold ev; rewrite Nat.eqb_refl; reflexivity).
  assert (Hp1 : proc_at p S1 = Some r) by exact Hp.
  assert (At : forall m, atrig m S1 = atrig m S) by (intros m; apply (atrig_timed (Some p)); exact (g_que _ _ G)).
  assert (Ti : forall m, tight (Some p) m S1 -> tight (Some p) m S) by (intros m (i & y & Hi & Hc); exists i, y; rewrite At in Hc; auto).
  set (c := KLocal b n e k).
  apply (Ok_parked p r c ev x S1 (g_que _ _ G1) Hp1 He (g_rest _ _ G1)); [reflexivity|discriminate|exact I|exists (now S + d)%Z; reflexivity| |].
  - apply (Sem_parked (called S1) _ p r c ev x S1 (g_que _ _ G1) (g_sem _ _ G1) Hp1 He).
    + intros E. contradiction.
    + intros m E. elim (Hx m E).
    + destruct b; [left|right; exact I]. destruct Hm as (Ch & _). apply (hits_hard _ _ _ _ _ (g_sem _ _ G1) Hp1). intros q. destruct (pcode r) as [| | | | | | | |[|] ? ?|[|] ? ? ?| | | | |]; try contradiction; intros [].
    + unfold c. destruct b; [|exact Hf]. destruct Hm as (_ & r0 & f & P0 & C0 & T0). exists r0, f. auto.
    + intros m [].
    + intros l _. split; [intros E; contradiction|]. intros m [].
    + intros E. contradiction.
    + discriminate.
    + intros m. apply called_parked; auto. exact (g_que _ _ G1).
  - assert (T : forall m, tight None m (parked p r c ev x S1) -> tight (Some p) m S).
    { intros m Tm. apply Ti. destruct (tight_parked p r c ev x S1 Hp1 He m Tm) as [T1|[T1|[T1 _]]]; [exact T1|discriminate|discriminate]. }
    destruct b.
    + destruct Hm as (_ & r0 & f & P0 & C0 & T0). exists r0. rewrite (pat_parked p r c ev x S1 Hp1). destruct (Nat.eqb_spec 0 p); [congruence|]. split; [exact P0|]. rewrite C0.
      exists p. eexists. rewrite (pat_parked p r c ev x S1 Hp1), Nat.eqb_refl. split; [reflexivity|]. split; [symmetry; exact T0|]. cbn [pcode pown c].
      destruct Hf as (cc & bb & F1 & F2 & F3). exists cc, bb. split; [exact F1|]. split; [exact F2|]. intros m Tm. exact (F3 m (T m Tm)).
    + apply (Phase_parked p r c ev x S1 Hp1 He); auto; [|intros m [E|[E _]]; discriminate].
      apply (Phase_easy (Some p) S S1 Ph); auto; [exact (holds_added x S)|]. intros m. rewrite At. auto.
Qed.
Lemma Local_ss p b r s' S : Local p b r S -> (forall m, cnt m S <= count m (sprocs s')) -> (b = false -> sprocs s' = sprocs (ss S)) -> Local p b r (set_ss s' S).
Proof.
  intros [G N0 Hp Hx Hk Ho Hm Ph] Hc Hb. constructor; auto.
  - apply (Going_rest p S); auto; [exact (g_rest _ _ G)|]. intros n q Hq. pose proof (s_cnt _ _ _ (g_sem _ _ G) n q Hq). specialize (Hc n). change (cnt n (set_ss s' S)) with (count n (sprocs s')). lia.
  - destruct b; [exact I|]. apply (Phase_easy (Some p) S _ Ph); auto. apply holds_refl. reflexivity.
Qed.
Lemma Local_log p b r x S : Local p b r S -> Local p b r (set_log x S).
Proof. intros [G N0 Hp Hx Hk Ho Hm Ph]. constructor; auto. apply (Going_rest p S); auto; [exact (g_rest _ _ G)|]. exact (s_cnt _ _ _ (g_sem _ _ G)). Qed.
Lemma Local_fired p b r e S : Local p b r S -> event_at (pact S) S = Some e -> evalue e = None -> Local p b r (fired (pact S) e S).
Proof.
  intros [G N0 Hp Hx Hk (eo & Ho & Ro & Vo) Hm Ph] He Hv. pose proof (g_que _ _ G) as Q. destruct (q_pact _ _ Q) as (x & Hx' & Re). assert (x = e) by congruence. subst x.
  constructor; auto.
  - apply Going_fired; auto; [right; apply (q_apart _ _ Q)|]. intros q y m _ _ _. apply (q_apart _ _ Q).
  - exists eo. split; [|auto]. change (event_at (pown r) (fired (pact S) e S)) with (event_at (pown r) (changed (pact S) (valued (Good XUnit) e) S)). rewrite (at_changed _ _ _ _ _ He).
    destruct (Nat.eqb_spec (pown r) (pact S)) as [E|N]; [congruence|exact Ho].
  - destruct b; [exact I|]. apply Phase_fired; auto.
Qed.
Lemma flow_fired p e g S : flow (Some p) S g -> event_at (pact S) S = Some e -> flow (Some p) (fired (pact S) e S) g.
Proof.
  intros (c & b & F1 & F2 & F3) He. exists c, b. split; [exact F1|]. split; [exact F2|]. intros n (i & x & Hi & Hc). apply (F3 n). exists i, x. split; [exact Hi|].
  destruct Hc as [Hc|(A & B & C)]; [auto|]. right. split; [exact A|]. split; [exact B|]. destruct (atrig n S) eqn:E; [|reflexivity]. rewrite (atrig_mono S n _ e He E) in C. discriminate.
Qed.

Lemma count_app n l l' : count_occ string_dec (l ++ l') n = count_occ string_dec l n + count_occ string_dec l' n.
Proof. apply count_occ_app. Qed.
Lemma local_next_ok p b r n g S : Local p b r S -> mannered (ss S) -> (if b then flow (Some p) S g else free tame g) -> LandsL p (local_next b n g S).
Proof.
  intros L M Hf. unfold local_next. destruct (resume g (ss S)) as [[s' ns] o] eqn:R. set (S1 := set_ss s' S).
  assert (A : Local p b r S1 /\ match o with
    | OYield _ k => if b then flow (Some p) S1 k else free tame k
    | OCont k => b = false /\ free tame k
    | ODone => if b then over (Some p) S1 else True
    | ORaise _ => True end).
  { destruct b.
    - destruct Hf as (c & bb & F1 & F2 & F3). destruct (resume_modest g c bb (ss S) s' ns o (F2 _ M F1) F1 R) as (c' & b' & C' & (new & E & Nd & Nb & Nb') & Ho).
      assert (Ct : forall m, cnt m S1 = cnt m S + count_occ string_dec new m) by (intros m; unfold cnt; cbn [S1 ss set_ss]; rewrite E; apply count_occ_app).
      assert (T : forall m, tight (Some p) m S1 -> cnt m S1 <= 1 /\ (b' m -> cnt m S1 = 0)).
      { intros m Tm. destruct (F3 m Tm) as [B1 B2]. rewrite Ct. destruct (in_dec string_dec m new) as [I|I].
        - rewrite (B2 (Nb m I)). split; [pose proof (proj1 (NoDup_count_occ string_dec new) Nd m); lia|]. intros Bm. elim (proj2 (Nb' m Bm) I).
        - rewrite (proj1 (count_occ_not_In string_dec new m) I). split; [lia|]. intros Bm. rewrite (B2 (proj1 (Nb' m Bm))). reflexivity. }
      split.
      + apply Local_ss; [exact L| |discriminate]. intros m. change (count m (sprocs s')) with (cnt m S1). rewrite Ct. lia.
      + destruct o as [|x|x k|k]; [|exact I|exists c', b'; auto|contradiction]. destruct Ho as [Ho|Ho]; [left|right].
        * split; [exact (C' Ho)|]. intros m Tm. apply (T m Tm).
        * intros m Tm. apply (T m Tm). apply Ho.
    - destruct (resume_moves tame tame_refl tame_trans g (ss S) s' ns o (Hf _) R) as [[_ [E _]] Ho]. split.
      + apply Local_ss; [exact L| |auto]. intros m. unfold count. rewrite E. unfold cnt. lia.
      + destruct o; auto. }
  destruct A as [L1 Ho]. clearbody S1. clear R. destruct o as [|x|x k|k].
  - split; [|exact I]. cbn [Lands]. apply (local_end p b r _ S1 L1); [destruct b; exact I|]. destruct b; auto.
  - split; [cbn; eauto|]. apply (local_end p b r _ S1 L1); [eauto|]. destruct b; eauto.
  - unfold bind. rewrite timeout_eq. destruct (Z.ltb_spec (etime x - now S1) 0) as [Lt|Ge].
    + split; [cbn; eauto|]. apply (local_end p b r _ S1 L1); [eauto|]. destruct b; eauto.
    + split; [|exact I]. cbn [Lands ret]. apply (local_wait p b r n x k _ S1 L1 Ge Ho).
  - destruct Ho as [-> Ho]. split; [|exact I]. cbn [Lands]. apply (local_end p false r _ S1 L1); auto.
Qed.

Lemma activate_eq e S : Que None S \/ (exists p, Que (Some p) S) -> exists S', activate e S = (S', inl tt) /\ (S' = S \/ exists x, event_at (pact S) S = Some x /\ evalue x = None /\ S' = fired (pact S) x S).
Proof.
  intros HQ. assert (Hr : role_at (pact S) RAct S) by (destruct HQ as [HQ|(p & HQ)]; exact (q_pact _ _ HQ)). destruct Hr as (x & Hx & _).
  unfold activate, bind, get. destruct (ewhat e); try (exists S; split; [reflexivity|auto]; fail);
    (destruct (String.eqb (eproc e) PROCEDURAL); [exists S; split; [reflexivity|auto]|]; destruct (trig S (pact S)) eqn:Tr; [exists S; split; [reflexivity|auto]|];
     unfold trig, triggered in Tr; rewrite Hx in Tr; destruct (evalue x) eqn:V; [discriminate|]; exists (fired (pact S) x S); split; [apply succeed_eq; auto|right; exists x; auto]).
Qed.
Lemma local_ok O p b n r g o S : Local p b r S -> mannered (ss S) -> hasenv S = false ->
  (pcode r = KLocal0 b n g \/ exists e, pcode r = KLocal b n e g) -> Act p (pcode r) o S -> (b = false -> free tame g) -> LandsL p (go_on O p (pcode r) o S).
Proof.
  intros L M He Hc Ha Hg.
  assert (End : forall x, LandsL p (S, inr (TExn x))) by (intros x; split; [cbn; eauto|]; apply (local_end p b r _ S L); [eauto|destruct b; eauto]).
  assert (Hf : (exists v, o = Good v) -> if b then flow (Some p) S g else free tame g).
  { intros (v & ->). destruct b; [|auto]. destruct Hc as [Hc|(e & Hc)]; rewrite Hc in Ha; exact Ha. }
  destruct Hc as [Hc|(e & Hc)]; rewrite Hc in *.
  - destruct o as [v|[x| |]]; [|apply End|contradiction|destruct b; contradiction]. apply (local_next_ok p b r n g S L M). apply Hf. eauto.
  - destruct o as [v|[x| |]]; [|apply End|contradiction|].
    + cbn [go_on]. unfold note. set (S1 := set_log (log S ++ [(now S, e)]) S). assert (L1 : Local p b r S1) by (apply Local_log; exact L).
      assert (F1 : if b then flow (Some p) S1 g else free tame g) by (apply Hf; eauto).
      destruct (activate_eq e S1 (or_intror (ex_intro _ p (g_que _ _ (l_going _ _ _ _ L1))))) as (S2 & E2 & D2).
      assert (A : Local p b r S2 /\ mannered (ss S2) /\ hasenv S2 = false /\ if b then flow (Some p) S2 g else free tame g).
      { destruct D2 as [->|(x & Hx & Vx & ->)]; [auto|]. split; [apply Local_fired; auto|]. split; [exact M|]. split; [exact He|]. destruct b; [apply flow_fired; auto|exact F1]. }
      destruct A as (L2 & M2 & H2 & F2). unfold bind at 1, upd_. fold S1. unfold bind at 1. rewrite E2. unfold bind, interact, bind, get, ret. rewrite H2. apply (local_next_ok p b r n g S2 L2 M2 F2).
    + destruct b; [contradiction|]. split; [|exact I]. cbn. apply (local_end p false r _ S L); exact I.
Qed.
