(** The invariant of FreeSteps is kept when a process runs. *)
From Coq Require Import Lia.
From Verif Require Import Base BaseFacts Chunks DecMem Buffers BufferFacts Productions ProdSpec LearnFacts Sim SimFacts RunFacts QueueFacts FailFacts SafeFacts SafeSteps SafeRuns FreeSpec FreeGens FreeQueue FreeSteps.
From Verif Require QuietSteps.
Local Open Scope string_scope.
Local Open Scope list_scope.
Local Open Scope nat_scope.

(** ** After the code of a process *)

(** The process [p] has got the code [c]. *)
Record Over (p : nat) (r : prc) (c : code) (w : nat) (S2 S3 : sim) : Prop := MkOver {
  ov_ss : ss S3 = ss S2;
  ov_heap : forall q, In q (heap S2) -> In q (heap S3);
  ov_ev : forall ev e, event_at ev S2 = Some e -> exists e', event_at ev S3 = Some e' /\ erole e' = erole e /\ forall v, evalue e = Some v -> evalue e' = Some v;
  ov_int : forall q B, In q (heap S3) -> role_at (qev q) (RInt B) S3 -> In q (heap S2) /\ role_at (qev q) (RInt B) S2;
  ov_p : exists tg, proc_at p S3 = Some (MkPrc (pkind r) (pown r) tg c);
  ov_prs : forall p', p' <> p -> proc_at p' S3 = proc_at p' S2;
  ov_lu : LU S3;
  ov_todo : todo S3 = [WEnd w] \/ exists o', todo S3 = [WRun p o'; WEnd w] /\ ~ firm c }.

Lemma over_hand p r c ev e w S2 : LU S2 -> proc_at p S2 = Some r -> event_at ev S2 = Some e -> (firm c -> processed ev S2 = false) -> todo S2 = [WEnd w] ->
  Over p r c w S2 (hand_over p ev (set_prc p (fun r => MkPrc (pkind r) (pown r) (ptarget r) c) S2)).
Proof.
  intros L Hr He Hf Et. destruct (ecbs e) as [l|] eqn:Ec.
  - rewrite (set_prc_at _ _ _ _ Hr). set (r1 := MkPrc _ _ _ c). set (Sa := set_prs _ S2). assert (He1 : event_at ev Sa = Some e) by exact He. set (r3 := MkPrc (pkind r) (pown r) ev c). set (e3 := MkEvt (erole e) (evalue e) (edefused e) (Some (l ++ [CResume p]))).
    assert (E : hand_over p ev Sa = set_prs (upd (prs S2) p r3) (changed ev e3 S2)).
    { unfold hand_over. rewrite He1, Ec. unfold exec_, add_cb, set_event, upd_. cbn [fst]. change (nth_error (evs Sa) ev) with (event_at ev Sa). rewrite He1, Ec. rewrite (set_prc_at p r1); [|unfold proc_at, Sa; cbn; apply (upd_same _ _ _ r); exact Hr]. 
      unfold set_prs, changed, set_evs. cbn. f_equal. apply upd_upd. }
    rewrite E. assert (At : forall j, event_at j (set_prs (upd (prs S2) p r3) (changed ev e3 S2)) = if Nat.eqb j ev then Some e3 else event_at j S2) by (intros j; exact (at_changed j ev e3 e S2 He)).
    assert (Pr : forall j, proc_at j (set_prs (upd (prs S2) p r3) (changed ev e3 S2)) = if Nat.eqb j p then Some r3 else proc_at j S2) by (intros j; exact (pat_upd j p r3 r S2 Hr)).
    constructor; try reflexivity; auto.
    + intros j x Hx. rewrite At. destruct (Nat.eqb_spec j ev) as [->|_]; [|eauto]. exists e3. assert (x = e) by congruence. subst x. auto.
    + intros q B Hq (x & Hx & R). split; [exact Hq|]. rewrite At in Hx. destruct (Nat.eqb_spec (qev q) ev) as [E1|_]; [|exists x; auto]. injection Hx as <-. exists e. rewrite E1. auto.
    + exists ev. rewrite Pr, Nat.eqb_refl. reflexivity.
    + intros p' Np. rewrite Pr. destruct (Nat.eqb_spec p' p); [contradiction|reflexivity].
    + apply (LU_same (changed ev e3 S2)); try reflexivity. apply (LU_changed ev e); auto. discriminate.
  - destruct (evalue e) as [u|] eqn:Ev; [|elim (lu_val _ L _ _ He Ec Ev)]. rewrite (move_eq p r c ev e u S2 Hr He Ec Ev). set (r3 := MkPrc (pkind r) (pown r) (ptarget r) c). set (S3 := set_todo _ _).
    assert (Pr : forall j, proc_at j S3 = if Nat.eqb j p then Some r3 else proc_at j S2) by (intros j; destruct u; exact (pat_upd j p r3 r S2 Hr)).
    assert (At : evs S3 = evs S2 \/ exists d, forall j, event_at j S3 = if Nat.eqb j ev then Some (MkEvt (erole e) (evalue e) d (ecbs e)) else event_at j S2).
    { destruct u as [v|t]; [left; reflexivity|right]. exists true. intros j. exact (at_changed j ev (MkEvt (erole e) (evalue e) true (ecbs e)) e S2 He). }
    constructor; try (destruct u; reflexivity); try (destruct u; auto; fail).
    + intros j x Hx. destruct At as [E|(d & At)]; [exists x; unfold event_at; rewrite E; auto|]. rewrite At. destruct (Nat.eqb_spec j ev) as [->|_]; [|eauto]. assert (x = e) by congruence. subst x. eexists. split; [reflexivity|]. auto.
    + intros q B Hq (x & Hx & R). split; [destruct u; exact Hq|]. destruct At as [E|(d & At)]; [exists x; unfold event_at in Hx; rewrite E in Hx; auto|]. rewrite At in Hx. destruct (Nat.eqb_spec (qev q) ev) as [E1|_]; [|exists x; auto]. injection Hx as <-. exists e. rewrite E1. auto.
    + exists (ptarget r). rewrite Pr, Nat.eqb_refl. reflexivity.
    + intros p' Np. rewrite Pr. destruct (Nat.eqb_spec p' p); [contradiction|reflexivity].
    + destruct u as [v|t]; [apply (LU_same S2); try reflexivity; exact L|]. apply (LU_same (changed ev (MkEvt (erole e) (evalue e) true (ecbs e)) S2)); try reflexivity. apply (LU_changed ev e); auto.
    + right. exists u. split; [subst S3; cbn [todo set_todo]; rewrite Et; reflexivity|]. intros F. specialize (Hf F). unfold processed in Hf. rewrite He, Ec in Hf. discriminate.
Qed.

Lemma over_end p r o e w S2 : LU S2 -> proc_at p S2 = Some r -> event_at (pown r) S2 = Some e -> evalue e = None -> todo S2 = [WEnd w] ->
  (forall B, erole e <> RInt B) -> Over p r KEnd w S2 (finished p r o e S2).
Proof.
  intros L Hr He Hv Et Nr. set (S3 := finished p r o e S2). set (r3 := MkPrc (pkind r) (pown r) (ptarget r) KEnd).
  assert (At : forall j, event_at j S3 = if Nat.eqb j (pown r) then Some (valued o e) else event_at j S2) by (intros j; exact (at_changed j (pown r) (valued o e) e S2 He)).
  assert (Pr : forall j, proc_at j S3 = if Nat.eqb j p then Some r3 else proc_at j S2) by (intros j; exact (pat_upd j p r3 r S2 Hr)).
  constructor; try reflexivity; auto.
  - intros q Hq. change (heap S3) with (heap S2 ++ [MkQ (now S2 + 0) NORMAL (eid S2) (pown r)]). apply in_or_app. auto.
  - intros j x Hx. rewrite At. destruct (Nat.eqb_spec j (pown r)) as [->|_]; [|eauto]. exists (valued o e). assert (x = e) by congruence. subst x. split; [reflexivity|]. split; [reflexivity|]. intros v Ev. congruence.
  - intros q B Hq (x & Hx & R). rewrite At in Hx. destruct (Nat.eqb_spec (qev q) (pown r)) as [E1|N]; [injection Hx as <-; elim (Nr B R)|]. change (heap S3) with (heap S2 ++ [MkQ (now S2 + 0) NORMAL (eid S2) (pown r)]) in Hq. apply in_app_or in Hq. destruct Hq as [Hq|[<-|[]]]; [|elim N; reflexivity]. split; [exact Hq|]. exists x. auto.
  - exists (ptarget r). rewrite Pr, Nat.eqb_refl. reflexivity.
  - intros p' Np. rewrite Pr. destruct (Nat.eqb_spec p' p); [contradiction|reflexivity].
  - apply LU_finished; auto.
Qed.

Section Module.
Variables (i : nat) (nm : dict nat).
Notation Bz := (Bz i nm).
Notation mine := (mine i nm).
Notation Heir := (Heir i nm).
Notation heir := (heir i nm).
Notation Cause := (Cause i nm).
Notation tidy := (tidy i nm).
Notation good := (good i nm).
Notation named := (named nm).
Notation pays_now := (pays_now i nm).
Notation payer := (payer i nm).

Section Step.
Variables (O : oracle) (p : nat) (o : outcome) (w : nat) (r : prc) (S : sim).
Hypothesis HB : Bz S.
Hypothesis HI : Inv S.
Hypothesis K : Ok S.
Hypothesis Et : todo S = [WRun p o; WEnd w].
Hypothesis Hr : proc_at p S = Some r.
Hypothesis Kr : pcode r <> KEnd.
Let S1 := set_todo [WEnd w] S.

(** What [go_on] has made of the state, and what becomes of it. *)
Section Wait.
Variables (S2 S3 : sim) (c : code).
Hypothesis G : Gro S1 S2.
Hypothesis V : Over p r c w S2 S3.
Hypothesis HI3 : Inv S3.
Hypothesis Lc : forall n, locl n c -> firm c.

Lemma w_heap q : In q (heap S) -> In q (heap S3).
Proof. intros H. apply (ov_heap _ _ _ _ _ _ V). destruct (r_heap _ _ G) as (new & E & _). rewrite E. apply in_or_app. left. exact H. Qed.
Lemma w_evs ev e : event_at ev S = Some e -> exists e', event_at ev S3 = Some e' /\ erole e' = erole e /\ forall v, evalue e = Some v -> evalue e' = Some v.
Proof.
  intros He. destruct (r_old _ _ G ev e He) as (e2 & H2 & R2 & _ & _ & V2). destruct (ov_ev _ _ _ _ _ _ V _ _ H2) as (e3 & H3 & R3 & V3). exists e3. split; [exact H3|]. split; [congruence|]. intros v Ev. apply V3. destruct V2 as [V2|[V2 _]]; congruence.
Qed.
Lemma w_prs p' x : p' <> p -> proc_at p' S = Some x -> proc_at p' S3 = Some x.
Proof. intros N Hx. rewrite (ov_prs _ _ _ _ _ _ V _ N). exact (r_prs _ _ G _ _ Hx). Qed.
Lemma w_role ev ro : role_at ev ro S2 -> role_at ev ro S3.
Proof. intros (e & He & R). destruct (ov_ev _ _ _ _ _ _ V _ _ He) as (e' & He' & R' & _). exists e'. split; [exact He'|congruence]. Qed.
Lemma w_todo r3 : pcode r3 = c -> todo S3 = [WEnd w] \/ exists o', todo S3 = [WRun p o'; WEnd w] /\ ~ firm (pcode r3) /\ forall n, ~ locl n (pcode r3).
Proof. intros ->. destruct (ov_todo _ _ _ _ _ _ V) as [E|(o' & E & F)]; [left; exact E|right; exists o'; split; [exact E|]; split; [exact F|]; intros n L; exact (F (Lc n L))]. Qed.
Lemma w_rint B : rint B S2 -> rint B S3.
Proof. intros (q & Hq & R). exists q. split; [exact (ov_heap _ _ _ _ _ _ V q Hq)|]. apply w_role, R. Qed.
Hypothesis Hlink : forall n' p' x, pcode r = KExtraPro n' p' -> proc_at p' S = Some x -> pcode x = KEnd \/ rint p' S2.

(** The causes that remain. *)
Lemma w_payer p' : p' <> p -> payer p' S -> payer p' S3.
Proof.
  destruct (ov_p _ _ _ _ _ _ V) as (tg & Hr3). intros N. apply (run_payer i nm p o w r S S3 Et Hr); auto.
  - apply w_heap.
  - apply w_evs.
  - apply w_prs.
  - intros n' p1 x E Hx. destruct (Hlink n' p1 x E Hx) as [X|X]; [left; exact X|right; apply w_rint, X].
Qed.
Lemma w_heir p' : heir p' S -> heir p' S3 /\ p' <> p.
Proof.
  destruct (ov_p _ _ _ _ _ _ V) as (tg & Hr3). apply (run_heir i nm p o w r (MkPrc (pkind r) (pown r) tg c) S S3 Et Hr); auto.
  - apply w_heap.
  - apply w_evs.
  - apply w_prs.
  - intros n' p1 x E Hx. destruct (Hlink n' p1 x E Hx) as [X|X]; [left; exact X|right; apply w_rint, X].
  - apply w_todo. reflexivity.
Qed.
Lemma w_waits : waits i nm S -> (forall n pro, pcode r <> KExtraPro n pro) -> waits i nm S3.
Proof.
  destruct (ov_p _ _ _ _ _ _ V) as (tg & Hr3). apply (run_waits i nm p r (MkPrc (pkind r) (pown r) tg c) S S3 Hr); auto.
  - apply w_evs.
  - apply w_prs.
Qed.
Lemma w_rules : rules i S -> (forall n e g, pcode r <> KLocal true n e g) -> rules i S3.
Proof. apply (run_rules i p r S S3 Hr w_prs). Qed.

Hypothesis Hnew : forall p' x, proc_at p' S2 = Some x -> proc_at p' S = Some x \/ (proc_at p' S = None /\ pcode x <> KEnd /\ tidy p' S3 (pcode x)).
Hypothesis Hint : forall q B, In q (heap S2) -> role_at (qev q) (RInt B) S2 ->
  (In q (heap S) /\ role_at (qev q) (RInt B) S) \/ forall x n, proc_at B S3 = Some x -> locl n (pcode x) -> mine n -> Heir q S3.
Hypothesis Hwork : working i (ss S2) -> Cause S3.
Hypothesis Htidy : tidy p S3 c.
Hypothesis Hnames : named (ss S2).
Hypothesis Hval : forall e g n, pkind r = Some (GLocal false n) -> event_at (pown r) S3 = Some e -> evalue e = Some (Good (XCont g)) -> good n g.
Lemma wait_Bz : Bz S3.
Proof.
  destruct (ov_p _ _ _ _ _ _ V) as (tg & Hr3). apply (run_Bz i nm p o w r (MkPrc (pkind r) (pown r) tg c) S S3); auto.
  - exact (ov_lu _ _ _ _ _ _ V).
  - apply w_heap.
  - apply w_evs.
  - apply w_prs.
  - intros n' p' x E Hx. destruct (Hlink n' p' x E Hx) as [X|X]; [left; exact X|right; apply w_rint, X].
  - apply w_todo. reflexivity.
  - intros p' x Hx. destruct (Nat.eq_dec p' p) as [->|N]; [left; reflexivity|right]. rewrite (ov_prs _ _ _ _ _ _ V _ N) in Hx. exact (Hnew p' x Hx).
  - intros q B Hq R. destruct (ov_int _ _ _ _ _ _ V q B Hq R) as [Hq2 R2]. exact (Hint q B Hq2 R2).
  - rewrite (ov_ss _ _ _ _ _ _ V). exact Hwork.
  - rewrite (ov_ss _ _ _ _ _ _ V). exact Hnames.
Qed.

Lemma w_waits2 : waits i nm S -> waits i nm S3 \/ exists n pro g x e, pcode r = KExtraPro n pro /\ mine n /\ proc_at pro S = Some x /\ event_at (pown x) S = Some e /\ evalue e = Some (Good (XCont g)) /\ pay true false i true g.
Proof.
  intros (E & n & pro & g & x & e & (y & Hy & Hc) & Hm & Hx & He & Hv & P). destruct (Nat.eq_dec E p) as [->|Ne].
  - right. assert (y = r) by congruence. subst y. exists n, pro, g, x, e. auto 6.
  - left. destruct (ov_p _ _ _ _ _ _ V) as (tg & Hr3). destruct (w_evs _ _ He) as (e' & He' & _ & Hv'). destruct (Nat.eq_dec pro p) as [->|Np].
    + exists E, n, p, g, (MkPrc (pkind r) (pown r) tg c), e'. split; [exists y; split; [apply w_prs; auto|exact Hc]|]. split; [exact Hm|]. split; [exact Hr3|]. assert (x = r) by congruence. subst x. split; [exact He'|]. split; [exact (Hv' _ Hv)|exact P].
    + exists E, n, pro, g, x, e'. split; [exists y; split; [apply w_prs; auto|exact Hc]|]. split; [exact Hm|]. split; [apply w_prs; auto|]. split; [exact He'|]. split; [exact (Hv' _ Hv)|exact P].
Qed.
End Wait.

Lemma own_open S2 S3 c : Over p r c w S2 S3 -> Inv S3 -> c <> KEnd -> forall e g n, pkind r = Some (GLocal false n) -> event_at (pown r) S3 = Some e -> evalue e = Some (Good (XCont g)) -> good n g.
Proof.
  intros V HI3 Kc e g n _ He Hv. exfalso. destruct (ov_p _ _ _ _ _ _ V) as (tg & Hr3). destruct (i_own _ HI3 _ _ Hr3) as (e1 & H1 & _ & V1). cbn [pown pcode] in *. assert (X : evalue e1 = None) by (apply V1; exact Kc). congruence.
Qed.

Let S3 := work_off O (WRun p o) S1.
Lemma parts_inv : Inv S3.
Proof. apply (step_ok O S); [exact HI|]. unfold sim_step. rewrite (o_dead _ K), Et. reflexivity. Qed.
Lemma parts_wait S2 c ev : go_on O p (pcode r) o S1 = (S2, inl (NWait c ev)) -> LU S2 -> Gro S1 S2 /\ Over p r c w S2 S3.
Proof.
  intros Hg L. pose proof (run_parts O p o [WEnd w] r S HI (o_env _ K) Et Hr Kr) as R. cbv zeta in R. fold S1 in R. rewrite Hg in R. cbn [fst] in R. destruct R as (H2 & G & Hr2). split; [exact G|].
  destruct (Inv_tail _ _ _ HI Et) as [H1 _]. fold S1 in H1. pose proof (i_kind _ H1 p r Hr) as [Hk Hkn]. pose proof (i_fits _ H1 p r Hr) as Hf. destruct Hk as [Hk|Hk]; [contradiction|].
  assert (G2 : tri2 (go_on O p (pcode r) o) S1 (lands (pkind r))).
  { apply (go_on_ok _ _ _ _ _ (ptarget r)); auto; [apply (i_env _ H1 _ _ Hr)|]. intros v t -> Du. apply (i_due _ HI p r v t Hr); [|exact Du]. rewrite Et. left. reflexivity. }
  unfold tri2 in G2. rewrite Hg in G2. destruct G2 as (_ & _ & _ & (e & He & _) & _ & Hp). 
  unfold S3. cbn [work_off]. change (nth_error (prs S1) p) with (proc_at p S). rewrite Hr, Hg. apply (over_hand p r c ev e); auto. rewrite (r_todo _ _ G). reflexivity.
Qed.
Lemma parts_done S2 v : go_on O p (pcode r) o S1 = (S2, inl (NDone v)) -> LU S2 -> Gro S1 S2 /\ Over p r KEnd w S2 S3 /\ exists e, event_at (pown r) S3 = Some e /\ evalue e = Some (Good v).
Proof.
  intros Hg L. pose proof (run_parts O p o [WEnd w] r S HI (o_env _ K) Et Hr Kr) as R. cbv zeta in R. fold S1 in R. rewrite Hg in R. cbn [fst] in R. destruct R as (H2 & G & Hr2). split; [exact G|].
  destruct (i_own _ H2 p r Hr2) as (e & He & Ro & Vo). assert (Ev : evalue e = None) by (apply Vo; exact Kr).
  unfold S3. cbn [work_off]. change (nth_error (prs S1) p) with (proc_at p S). rewrite Hr, Hg. rewrite (end_eq p r _ e S2 Hr2 He). split.
  - apply over_end; auto; [rewrite (r_todo _ _ G); reflexivity|]. intros B. congruence.
  - exists (valued (Good v) e). split; [|reflexivity]. change (event_at (pown r) (changed (pown r) (valued (Good v) e) S2) = Some (valued (Good v) e)). rewrite (at_changed _ _ _ _ _ He), Nat.eqb_refl. reflexivity.
Qed.

(** A process that has got a value has ended. *)
Lemma valued_ended n pro v x : pcode r = KExtraPro n pro -> o = Good v -> proc_at pro S = Some x -> pcode x = KEnd /\ forall e, event_at (pown x) S = Some e -> evalue e = Some (Good v).
Proof.
  intros Hc -> Hx. destruct (i_own _ HI pro x Hx) as (e & He & _ & Ve). pose proof (b_tie _ _ _ HB p v [WEnd w] r n pro x e Et Hr Hc Hx He) as Tv. split; [|intros e' He'; congruence].
  destruct (pcode x) eqn:Cx; try reflexivity; exfalso; assert (X : evalue e = None) by (apply Ve; discriminate); congruence.
Qed.

(** ** Waiting without any new process *)
Definition isl (c : code) : Prop := match c with KLocal0 _ _ _ | KLocal _ _ _ _ => True | _ => False end.
Lemma isl_locl n c : locl n c -> isl c.
Proof. destruct c as [| | | | | | | |[|] m g|[|] m e g| | | | |]; cbn; auto. Qed.
Lemma isl_tidy q S0 c : ~ isl c -> tidy q S0 c.
Proof. destruct c as [| | | | | | | |[|] m g|[|] m e g| | | | |]; cbn; tauto. Qed.
Lemma isl_payer : ~ isl (pcode r) -> ~ payer p S.
Proof. intros N (n & g & [(x & Hx & Hc)|(e & x & Hx & Hc)] & _); apply N; assert (x = r) by congruence; subst x; rewrite Hc; exact I. Qed.
Lemma isl_rules : ~ isl (pcode r) -> forall n e g, pcode r <> KLocal true n e g.
Proof. intros N n e g E. apply N. rewrite E. exact I. Qed.

Lemma keep_wait S2 c ev : go_on O p (pcode r) o S1 = (S2, inl (NWait c ev)) -> LU S2 -> prs S2 = prs S -> keepsq (ss S) (ss S2) -> (working i (ss S2) -> working i (ss S)) ->
  (forall q B, In q (heap S2) -> role_at (qev q) (RInt B) S2 -> (In q (heap S) /\ role_at (qev q) (RInt B) S) \/ forall x n, proc_at B S = Some x -> ~ locl n (pcode x)) ->
  (forall n pro, pcode r = KExtraPro n pro -> exists v, o = Good v /\ forall g, v <> XCont g) ->
  ~ isl (pcode r) -> c <> KEnd -> ~ isl c -> Bz S3.
Proof.
  intros Hg L Ep Kq Wk Hi Hw Nl Kc Nc. destruct (parts_wait S2 c ev Hg L) as [G V]. pose proof parts_inv as HI3.
  assert (Nlc : forall n, ~ locl n c) by (intros n Lc; exact (Nc (isl_locl _ _ Lc))).
  assert (Lf : forall n, locl n c -> firm c) by (intros n Lc; elim (Nlc n Lc)).
  assert (Hl : forall n' p' x, pcode r = KExtraPro n' p' -> proc_at p' S = Some x -> pcode x = KEnd \/ rint p' S2).
  { intros n' p' x Hc Hx. destruct (Hw _ _ Hc) as (v & Ev & _). left. exact (proj1 (valued_ended n' p' v x Hc Ev Hx)). }
  assert (Pa : forall p', proc_at p' S2 = proc_at p' S) by (intros p'; unfold proc_at; rewrite Ep; reflexivity).
  apply (wait_Bz S2 S3 c G V HI3); auto.
  - intros p' x Hx. left. rewrite <- Pa. exact Hx.
  - intros q B Hq R. destruct (Hi q B Hq R) as [X|X]; [left; exact X|right]. intros x n Hx Lx _. exfalso. destruct (Nat.eq_dec B p) as [->|N].
    + destruct (ov_p _ _ _ _ _ _ V) as (tg & Hr3). assert (E : x = MkPrc (pkind r) (pown r) tg c) by congruence. subst x. exact (Nlc n Lx).
    + rewrite (ov_prs _ _ _ _ _ _ V _ N), Pa in Hx. exact (X x n Hx Lx).
  - intros W. destruct (b_work _ _ _ HB (Wk W)) as [C|[(p' & C)|[C|C]]].
    + left. rewrite (ov_ss _ _ _ _ _ _ V). exact (qd_keeps _ _ _ Kq C).
    + right; left. exists p'. apply (w_payer S2 S3 c G V Hl); [|exact C]. intros ->. exact (isl_payer Nl C).
    + right; right; left. destruct (w_waits2 S2 S3 c G V C) as [X|(n & pro & g & x & e & Hc & _ & Hx & He & Hv & _)]; [exact X|]. exfalso. destruct (Hw _ _ Hc) as (v & Ev & Nv). pose proof (proj2 (valued_ended n pro v x Hc Ev Hx) e He) as Y. apply (Nv g). congruence.
    + right; right; right. exact (w_rules S2 S3 c G V C (isl_rules Nl)).
  - apply isl_tidy. exact Nc.
  - exact (named_keeps nm _ _ Kq (b_names _ _ _ HB)).
  - exact (own_open S2 S3 c V HI3 Kc).
Qed.

(** ** Starting a process and waiting for it *)
Lemma spawn_wait Sx n g b c ev : go_on O p (pcode r) o S1 = (spawned (KLocal0 b n g) Sx, inl (NWait c ev)) -> LU Sx -> prs Sx = prs S -> 
  (forall q B, In q (heap Sx) -> role_at (qev q) (RInt B) Sx -> (In q (heap S) /\ role_at (qev q) (RInt B) S) \/
     B < List.length (prs S) /\ forall x m, proc_at B S = Some x -> locl m (pcode x) -> mine m -> (exists h, pay true h i true g /\ (h = true -> c = KExtraPro n (List.length (prs S)))) /\ b = false /\ mine n /\ (qtime q <= now Sx)%Z /\ qprio q = URGENT /\ qid q < eid Sx) ->
  (forall n' p' x, pcode r = KExtraPro n' p' -> proc_at p' S = Some x -> pcode x = KEnd \/ rint p' Sx) ->
  named (ss Sx) -> ~ isl (pcode r) -> c <> KEnd -> ~ isl c ->
  (if b then pay true false i false g else (mine n -> exists b' h, pay true b' i h g /\ (b' = true -> c = KExtraPro n (List.length (prs S)))) /\ (~ mine n -> pay false true i false g)) ->
  (forall S2, Over p r c w S2 S3 -> Gro S1 S2 -> S2 = spawned (KLocal0 b n g) Sx -> (forall b', b = false -> mine n -> pay true b' i true g -> (b' = true -> c = KExtraPro n (List.length (prs S))) -> Cause S3) -> working i (ss Sx) -> Cause S3) ->
  Bz S3.
Proof.
  intros Hg L Ep Hi Hl Hn Nl Kc Nc Ht Hwk. set (S2 := spawned (KLocal0 b n g) Sx) in *. destruct (parts_wait S2 c ev Hg (LU_spawned _ _ L)) as [G V]. pose proof parts_inv as HI3.
  assert (Nlc : forall m, ~ locl m c) by (intros m Lc; exact (Nc (isl_locl _ _ Lc))).
  assert (Lf : forall m, locl m c -> firm c) by (intros m Lc; elim (Nlc m Lc)).
  set (np := List.length (prs S)). assert (Enp : List.length (prs Sx) = np) by (rewrite Ep; reflexivity).
  assert (Np : np <> p). { apply pat_old in Hr. unfold np. lia. }
  assert (Hnp : proc_at np S2 = Some (MkPrc (kind_of (KLocal0 b n g)) (List.length (evs Sx)) (Datatypes.S (List.length (evs Sx))) (KLocal0 b n g))) by (unfold S2; rewrite pat_spawned, Enp, Nat.eqb_refl; reflexivity).
  assert (Ho : forall p', p' <> np -> proc_at p' S2 = proc_at p' S). { intros p' N. unfold S2. rewrite pat_spawned, Enp. destruct (Nat.eqb_spec p' np); [contradiction|]. unfold proc_at. rewrite Ep. reflexivity. }
  assert (Np0 : proc_at np S = None) by (unfold proc_at, np; apply nth_error_None; lia).
  assert (Hnp3 : at_ np (KLocal0 b n g) S3). { unfold at_. rewrite (ov_prs _ _ _ _ _ _ V _ Np), Hnp. eexists. split; reflexivity. }
  assert (Lk : c = KExtraPro n np -> linked n np S3). { intros ->. left. exists p. destruct (ov_p _ _ _ _ _ _ V) as (tg & Hr3). eexists. split; [exact Hr3|reflexivity]. }
  assert (Ri : forall B, rint B Sx -> rint B S2).
  { intros B (q & Hq & e & He & R). exists q. split; [apply in_or_app; left; exact Hq|]. exists e. split; [apply at_spawned_old; exact He|exact R]. }
  assert (Pn : forall b', b = false -> mine n -> pay true b' i true g -> (b' = true -> c = KExtraPro n np) -> heir np S3).
  { intros b' Eb Hm P Hc. split.
    - destruct (w_todo S2 S3 c V Lf (MkPrc None 0 0 c) eq_refl) as [E|(o' & E & _)]; rewrite E; intros [(? & ? & D)|(? & ? & D)]; congruence.
    - exists n, g. rewrite Eb in Hnp3. split; [exact Hnp3|]. split; [exact Hm|]. exists b'. auto. }
  apply (wait_Bz S2 S3 c G V HI3); auto.
  - intros n' p' x Hc Hx. destruct (Hl n' p' x Hc Hx) as [X|X]; auto.
  - intros p' x Hx. destruct (Nat.eq_dec p' np) as [->|N]; [right|left; rewrite <- Ho by exact N; exact Hx]. split; [exact Np0|]. assert (E : pcode x = KLocal0 b n g) by (rewrite Hnp in Hx; injection Hx as <-; reflexivity). rewrite E. split; [discriminate|]. cbn [FreeSteps.tidy].
    destruct b; [exact Ht|]. destruct Ht as [A B]. split; [|exact B]. intros Hm. destruct (A Hm) as (b' & h & P & Hc). exists b', h. split; [exact P|]. intros Eb. apply Lk. exact (Hc Eb).
  - intros q B Hq (e & He & R). unfold S2 in Hq, He. rewrite at_spawned in He. destruct (Nat.eqb_spec (qev q) (Datatypes.S (List.length (evs Sx)))) as [E1|N1]; [injection He as <-; discriminate|].
    destruct (Nat.eqb_spec (qev q) (List.length (evs Sx))) as [E2|N2]; [injection He as <-; discriminate|]. apply in_app_or in Hq. destruct Hq as [Hq|[<-|[]]]; [|elim N1; reflexivity].
    destruct (Hi q B Hq) as [X|[LB X]]; [exists e; auto|left; exact X|right]. intros x m Hx Lx Hm.
    assert (Hx' : proc_at B S = Some x \/ B = np). { destruct (Nat.eq_dec B p) as [->|NB]; [exfalso; destruct (ov_p _ _ _ _ _ _ V) as (tg & Hr3); assert (E : x = MkPrc (pkind r) (pown r) tg c) by congruence; subst x; exact (Nlc m Lx)|]. destruct (Nat.eq_dec B np); [auto|]. left. rewrite (ov_prs _ _ _ _ _ _ V _ NB), Ho in Hx; auto. }
    destruct Hx' as [Hx'| ->].
    + destruct (X x m Hx' Lx Hm) as ((h & P & Hc) & Eb & Hmn & T1 & T2 & T3).
      exists (MkQ (now Sx + 0) URGENT (eid Sx) (Datatypes.S (List.length (evs Sx)))), np. split; [apply (ov_heap _ _ _ _ _ _ V); apply in_or_app; right; left; reflexivity|]. split.
      { apply (w_role S2 S3 c V). unfold S2. exists (MkEvt (RInit np) (Some (Good XUnit)) false (Some [CResume np])). rewrite at_spawned, Enp. cbn [qev]. rewrite Nat.eqb_refl. auto. }
      split; [|exact (Pn h Eb Hmn P Hc)]. split; [cbn [qtime]; lia|]. split; [exact T2|exact T3].
    + unfold np in LB. lia.
  - intros W. apply (Hwk S2 V G eq_refl); [|exact W]. intros b' Eb Hm P Hc. right; left. exists np. apply heir_payer. exact (Pn b' Eb Hm P Hc).
  - apply isl_tidy. exact Nc.
  - exact (own_open S2 S3 c V HI3 Kc).
Qed.

Lemma cause_keep S2 c : Gro S1 S2 -> Over p r c w S2 S3 -> (forall n' p' x, pcode r = KExtraPro n' p' -> proc_at p' S = Some x -> pcode x = KEnd \/ rint p' S2) -> ~ isl (pcode r) ->
  (qd i (ss S) -> Cause S3) -> (forall n pro g x e, pcode r = KExtraPro n pro -> mine n -> proc_at pro S = Some x -> event_at (pown x) S = Some e -> evalue e = Some (Good (XCont g)) -> pay true false i true g -> Cause S3) ->
  Cause S -> Cause S3.
Proof.
  intros G V Hl Nl Hq Hw [C|[(p' & C)|[C|C]]].
  - auto.
  - right; left. exists p'. apply (w_payer S2 S3 c G V Hl); [|exact C]. intros ->. exact (isl_payer Nl C).
  - destruct (w_waits2 S2 S3 c G V C) as [X|(n & pro & g & x & e & Hc & Hm & Hx & He & Hv & P)]; [right; right; left; exact X|]. exact (Hw n pro g x e Hc Hm Hx He Hv P).
  - right; right; right. exact (w_rules S2 S3 c G V C (isl_rules Nl)).
Qed.

(** ** The rules start *)
Lemma wait_for_eq c n Sx : wait_for c (List.length (prs Sx)) (spawned n Sx) = (spawned n Sx, inl (NWait c (List.length (evs Sx)))).
Proof. unfold wait_for, bind, get, ret, own_event. change (nth_error (prs ?x) ?y) with (proc_at y x). rewrite pat_spawned, Nat.eqb_refl. reflexivity. Qed.
Lemma main_starts f : ~ isl (pcode r) -> (forall n pro, pcode r <> KExtraPro n pro) ->
  go_on O p (pcode r) o S1 = (let! S := get in let! pro := spawn (KLocal0 true PROCEDURAL (procedural O (seconds_of (now S)))) in wait_for (KProcPro f) pro) S1 -> Bz S3.
Proof.
  intros Nl Ne Hg. set (g := procedural O (seconds_of (now S1))). assert (Hg2 : go_on O p (pcode r) o S1 = (spawned (KLocal0 true PROCEDURAL g) S1, inl (NWait (KProcPro f) (List.length (evs S1))))).
  { rewrite Hg. unfold bind, get. rewrite spawn_eq, wait_for_eq. reflexivity. }
  apply (spawn_wait S1 PROCEDURAL g true (KProcPro f) (List.length (evs S1)) Hg2); auto; try discriminate.
  - apply (LU_same S); [reflexivity|reflexivity|exact (b_lu _ _ _ HB)].
  - intros n' p' x Hc. elim (Ne _ _ Hc).
  - exact (b_names _ _ _ HB).
  - apply pay_procedural.
  - intros S2 V G E _ W. apply (cause_keep S2 (KProcPro f) G V); auto.
    + intros n' p' x Hc. elim (Ne _ _ Hc).
    + intros C. left. rewrite (ov_ss _ _ _ _ _ _ V), E. exact C.
    + intros n pro g' x e Hc. elim (Ne _ _ Hc).
    + exact (b_work _ _ _ HB W).
Qed.

(** ** A retrieval goes on after its interruption has become impossible *)
Lemma extra_continues n pro g : pcode r = KExtraPro n pro -> o = Good (XCont g) -> Bz S3.
Proof.
  intros Hc Eo. assert (Nl : ~ isl (pcode r)) by (rewrite Hc; exact (fun X => X)).
  set (np := List.length (prs S)). assert (Hg2 : go_on O p (pcode r) o S1 = (spawned (KLocal0 false n g) S1, inl (NWait (KExtraCont n np) (List.length (evs S1))))).
  { rewrite Hc, Eo. cbn [go_on]. unfold bind. rewrite spawn_eq. change np with (List.length (prs S1)). rewrite wait_for_eq. reflexivity. }
  pose proof (i_fits _ HI p r Hr) as Hf. rewrite Hc in Hf. cbn [fits] in Hf. destruct Hf as (x & Hx & Kx & Ox). destruct (valued_ended n pro (XCont g) x Hc Eo Hx) as [Ex Vx]. destruct (i_own _ HI pro x Hx) as (e & He & _).
  destruct (b_val _ _ _ HB pro x e g n Hx Kx He (Vx e He)) as [G1 G2].
  apply (spawn_wait S1 n g false (KExtraCont n np) (List.length (evs S1)) Hg2); auto; try discriminate.
  - apply (LU_same S); [reflexivity|reflexivity|exact (b_lu _ _ _ HB)].
  - intros n' p' y Hc' Hy. left. exact (proj1 (valued_ended n' p' _ y Hc' Eo Hy)).
  - exact (b_names _ _ _ HB).
  - split; [|intros Nm s; apply pays_more; exact (G2 Nm s)]. intros Hm. destruct (G1 Hm) as (h & P). exists false, h. split; [exact P|discriminate].
  - intros S2 V G E Pn W. apply (cause_keep S2 (KExtraCont n np) G V); auto.
    + intros n' p' y Hc' Hy. left. exact (proj1 (valued_ended n' p' _ y Hc' Eo Hy)).
    + intros C. left. rewrite (ov_ss _ _ _ _ _ _ V), E. exact C.
    + intros n' pro' g' x' e' Hc' Hm Hx' He' Hv P. assert (n' = n) by congruence. subst n'. pose proof (proj2 (valued_ended n pro' _ x' Hc' Eo Hx') e' He') as Y. assert (g' = g) by congruence. subst g'. apply (Pn false); auto. discriminate.
    + exact (b_work _ _ _ HB W).
Qed.

(** ** The next request of a buffer *)
Hypothesis Lz : ~ exists id n m c bs t, In (PReq id n m i c bs t) (sprocs (ss S)) /\ idle_command m c bs.
Lemma put_ss l Sx : early Sx = None -> ss (put_started l Sx) = set_procs l (snext (ss Sx)) (ss Sx).
Proof. intros E. unfold put_started. rewrite E. reflexivity. Qed.
Lemma extra_next (X : nat -> Prop) n Sx S2 nx : xcode n (pcode r) -> go_on O p (pcode r) o S1 = extra_loop O n Sx -> extra_loop O n Sx = (S2, inl nx) -> Fr X S1 Sx -> early Sx = early S ->
  (forall n' p' x, pcode r = KExtraPro n' p' -> proc_at p' S = Some x -> pcode x = KEnd \/ rint p' Sx) ->
  (forall B, X B -> B < List.length (prs S) /\ forall x m, proc_at B S = Some x -> locl m (pcode x) -> m = n) ->
  (forall q B, In q (heap Sx) -> role_at (qev q) (RInt B) Sx -> X B -> (In q (heap S) /\ role_at (qev q) (RInt B) S) \/ ((qtime q <= now Sx)%Z /\ qprio q = URGENT /\ qid q < eid Sx)) ->
  (forall pro, pcode r = KExtraPro n pro -> (exists v, o = Good v /\ forall g, v <> XCont g) \/ take_proc n (get_started Sx) <> None) ->
  (forall B, X B -> take_proc n (get_started Sx) <> None) -> Bz S3.
Proof.
  intros Xc Hg0 He0 F Ee Hl HX HXq Hw HXn. assert (Hg : go_on O p (pcode r) o S1 = (S2, inl nx)) by congruence. assert (Nl : ~ isl (pcode r)) by (destruct (pcode r); cbn in *; tauto).
  assert (Xn : forall n' pro, pcode r = KExtraPro n' pro -> n' = n) by (intros n' pro E; rewrite E in Xc; exact Xc).
  pose proof (fr_lu _ _ _ F) as Lx. assert (L1 : LU S1) by (apply (LU_same S); [reflexivity|reflexivity|exact (b_lu _ _ _ HB)]). specialize (Lx L1).
  assert (A1 : Acted S1) by (split; [exact (i_pact _ HI)|exact (i_acts _ HI)]). destruct (fr_acted _ _ _ F A1) as [_ Ax]. pose proof (fr_prs _ _ _ F) as Ep. change (prs S1) with (prs S) in Ep. pose proof (fr_ss _ _ _ F) as Es. change (ss S1) with (ss S) in Es.
  destruct (take_proc n (get_started Sx)) as [[q l]|] eqn:Tk.
  - (* a request is taken *)
    assert (Hq : q <> PProc). { intros ->. unfold extra_loop, bind, get in He0. rewrite Tk in He0. discriminate. }
    destruct (dget (acts Sx) n) as [ev|] eqn:Da.
    2:{ exfalso. revert He0. unfold extra_loop, bind, get. rewrite Tk. assert (Dp : dget (acts (put_started l Sx)) n = None) by (unfold put_started; destruct (early Sx); exact Da). destruct q; [discriminate| |]; unfold upd_, act_of, bind, get; rewrite Dp; discriminate. }
    destruct (Ax n ev Da) as (e & He & _). pose proof (extra_takes O n q l ev e Sx Tk Hq Da He) as Hx. rewrite Hx in He0. injection He0 as <- <-. rewrite Ep in Hg.
    destruct (early S) as [le|] eqn:Eae.
    { exfalso. destruct (o_all _ K) as (a & _ & Se & _). destruct (s_early _ _ _ Se le Eae) as (-> & _). unfold get_started in Tk. rewrite Ee in Tk. discriminate. }
    assert (Gs : get_started Sx = sprocs (ss S)) by (unfold get_started; rewrite Ee, Es; reflexivity). rewrite Gs in Tk.
    assert (Sp : exists l1 l2, sprocs (ss S) = l1 ++ q :: l2 /\ l = l1 ++ l2 /\ match q with PProc => "P" | PReq _ m _ _ _ _ _ | PAuto _ m _ _ _ _ => m end = n) by exact (QuietSteps.take_split n _ _ _ Tk).
    destruct Sp as (l1 & l2 & El & El' & Nq). destruct (b_names _ _ _ HB) as [Nn Np]. assert (Hin : In q (sprocs (ss S))) by (rewrite El; apply in_or_app; right; left; reflexivity).
    destruct (Np q Hin) as [->|(id & n0 & m & j & c & bs & t & -> & Dj)]; [contradiction|]. cbv beta iota in Nq. subst n0. cbn [proc_gen] in Hg.
    unfold taken in Hg. set (Sy := if trig Sx ev then put_started l Sx else fired ev e (put_started l Sx)) in *.
    assert (Fy : Fr X Sx Sy \/ True) by auto.
    assert (Ey : prs Sy = prs S /\ ss Sy = set_procs l (snext (ss S)) (ss S) /\ now Sy = now Sx /\ eid Sx <= eid Sy).
    { unfold Sy. destruct (trig Sx ev); unfold put_started; rewrite Ee; cbn [fired queued changed set_queue set_evs prs ss now eid set_ss]; rewrite Es, Ep; auto. }
    destruct Ey as (Ey1 & Ey2 & Ey3 & Ey4).
    assert (Hpe : event_at ev (put_started l Sx) = Some e) by (unfold put_started; destruct (early Sx); exact He).
    assert (Lp : LU (put_started l Sx)) by (apply (LU_same Sx); [unfold put_started; destruct (early Sx); reflexivity|unfold put_started; destruct (early Sx); reflexivity|exact Lx]).
    assert (Fp : Fr (fun _ => False) (put_started l Sx) Sy).
    { unfold Sy. destruct (trig Sx ev) eqn:Tr; [apply Fr_refl|]. unfold fired. apply Fr_set; [exact Hpe|]. unfold trig, triggered in Tr. rewrite He in Tr. destruct (evalue e); [discriminate|reflexivity]. }
    pose proof (fr_lu _ _ _ Fp Lp) as Ly.
    assert (Int : forall q0 B, In q0 (heap Sy) -> role_at (qev q0) (RInt B) Sy -> In q0 (heap Sx) /\ role_at (qev q0) (RInt B) Sx).
    { intros q0 B H0 R0. destruct (fr_int _ _ _ Fp q0 B Lp H0 R0) as [[H1 R1]|[]]. unfold put_started in H1, R1. destruct (early Sx); auto. }
    assert (Riy : forall B, rint B Sx -> rint B Sy).
    { intros B (q0 & H0 & R0). exists q0. unfold Sy. assert (Hp0 : In q0 (heap (put_started l Sx)) /\ role_at (qev q0) (RInt B) (put_started l Sx)) by (unfold put_started; destruct (early Sx); auto). destruct Hp0 as [Hp1 Hp2].
      destruct (trig Sx ev); [auto|]. unfold fired. split; [apply in_or_app; left; exact Hp1|]. apply (role_set ev e (valued (Good XUnit) e) _ Hpe eq_refl); exact Hp2. }
    set (np := List.length (prs S)) in *. set (g := start O m n j c bs t) in *.
    assert (Pg : forall h, j = i -> pay true true i h g).
    { intros h ->. apply pay_own. intros Ic. apply Lz. exists id, n, m, c, bs, t. auto. }
    assert (Mj : mine n <-> j = i) by (unfold FreeSteps.mine; rewrite Dj; split; congruence).
    apply (spawn_wait Sy n g false (KExtraPro n np) (List.length (evs Sx)) Hg Ly Ey1); auto; try discriminate.
    + intros q0 B H0 R0. destruct (Int q0 B H0 R0) as [H1 R1]. destruct (fr_int _ _ _ F q0 B L1 H1 R1) as [Z|Z]; [left; exact Z|]. destruct (HXq q0 B H1 R1 Z) as [Y|(T1 & T2 & T3)]; [left; exact Y|right]. destruct (HX B Z) as [Z1 Z2]. split; [exact Z1|].
      intros x m0 Hx0 Lx0 Hm0. pose proof (Z2 x m0 Hx0 Lx0) as Em. subst m0. split; [exists true; split; [apply Pg, Mj, Hm0|reflexivity]|]. split; [reflexivity|]. split; [exact Hm0|]. rewrite Ey3. split; [exact T1|]. split; [exact T2|]. lia.
    + intros n' p' x Hc' Hx'. destruct (Hl n' p' x Hc' Hx') as [Y|Y]; auto.
    + rewrite Ey2. split; [exact Nn|]. intros pr Hpr. cbn [sprocs set_procs] in Hpr. apply Np. rewrite El. rewrite El' in Hpr. apply in_app_or in Hpr. apply in_or_app. cbn. tauto.
    + split; [|intros Nm; apply pay_other; intros E; apply Nm, Mj, E]. intros Hm. exists true, true. split; [apply Pg, Mj, Hm|reflexivity].
    + intros S2 V G E Pn W. rewrite Ey2 in W. destruct (Nat.eq_dec j i) as [Ej|Nj]; [apply (Pn true); auto; apply Mj, Ej|].
      apply (cause_keep S2 (KExtraPro n np) G V); auto.
      * intros n' p' x Hc' Hx'. destruct (Hl n' p' x Hc' Hx') as [Y|Y]; [auto|]. right. rewrite E. destruct (Riy p' Y) as (q0 & H0 & R0). exists q0. split; [apply in_or_app; left; exact H0|]. destruct R0 as (e0 & He0 & R0). exists e0. split; [apply at_spawned_old; exact He0|exact R0].
      * intros (id0 & n0 & m0 & c0 & bs0 & t0 & C). left. rewrite (ov_ss _ _ _ _ _ _ V), E. change (ss (spawned (KLocal0 false n g) Sy)) with (ss Sy). rewrite Ey2. exists id0, n0, m0, c0, bs0, t0. cbn [sprocs set_procs]. rewrite El in C. rewrite El'. apply in_app_or in C. apply in_or_app. destruct C as [C|[C|C]]; [auto| |auto]. exfalso. congruence.
      * intros n' pro g' x e' Hc' Hm' _ _ _ _. exfalso. rewrite (Xn _ _ Hc') in Hm'. apply Nj, Mj, Hm'.
      * exact (b_work _ _ _ HB W).
  - (* nothing to do *)
    destruct (dget (acts Sx) n) as [ev|] eqn:Da.
    2:{ exfalso. revert He0. unfold extra_loop, bind, get. rewrite Tk. unfold upd_, act_of, bind, get. cbn [acts set_inter]. rewrite Da. discriminate. }
    rewrite (extra_idle O n ev Sx Tk Da) in He0. injection He0 as <- <-.
    apply (keep_wait (set_inter (ddel (inter Sx) n) Sx) (KExtraAct n) ev Hg); auto; try discriminate.
    + apply (LU_same Sx); [reflexivity|reflexivity|exact Lx].
    + cbn [ss set_inter]. rewrite Es. apply keepsq_same; reflexivity.
    + cbn [ss set_inter]. rewrite Es. auto.
    + intros q0 B H0 R0. destruct (fr_int _ _ _ F q0 B L1 H0 R0) as [Y|Y]; [left; exact Y|]. elim (HXn B Y eq_refl).
    + intros n' pro Hc'. pose proof (Xn _ _ Hc') as En. subst n'. destruct (Hw pro Hc') as [Y|Y]; [exact Y|]. elim Y. reflexivity.
Qed.

(** ** A local process goes on *)
Lemma loc_cause S2 c : Gro S1 S2 -> Over p r c w S2 S3 -> isl (pcode r) -> (qd i (ss S) -> qd i (ss S2)) -> (payer p S -> Cause S3) ->
  (forall n e g, pcode r = KLocal true n e g -> pay true false i true g -> Cause S3) -> Cause S -> Cause S3.
Proof.
  intros G V Il Hq Hp Hru [C|[(p' & C)|[C|C]]].
  - left. rewrite (ov_ss _ _ _ _ _ _ V). auto.
  - destruct (Nat.eq_dec p' p) as [->|N]; [exact (Hp C)|]. right; left. exists p'. apply (w_payer S2 S3 c G V); [|exact N|exact C]. intros n' q x Hc. rewrite Hc in Il. contradiction.
  - right; right; left. apply (w_waits S2 S3 c G V C). intros n' q Hc. rewrite Hc in Il. contradiction.
  - destruct C as (p' & n & e & g & (x & Hx & Hc) & P). destruct (Nat.eq_dec p' p) as [->|N]; [assert (x = r) by congruence; subst x; exact (Hru n e g Hc P)|].
    right; right; right. exists p', n, e, g. split; [exists x; split; [exact (w_prs S2 S3 c G V p' x N Hx)|exact Hc]|exact P].
Qed.
Lemma own_linked n v S2 c : Gro S1 S2 -> Over p r c w S2 S3 -> isl (pcode r) -> o = Good v -> linked n p S -> (exists E, at_ E (KExtraPro n p) S3) \/ (rint p S /\ rint p S3).
Proof.
  intros G V Il Eo [(E & x & Hx & Hc)|[(q & Hq & R)|A]].
  - left. exists E, x. split; [|exact Hc]. apply (w_prs S2 S3 c G V); [|exact Hx]. intros ->. assert (x = r) by congruence. subst x. rewrite Hc in Il. exact Il.
  - right. split; [exists q; auto|]. exists q. split; [exact (w_heap S2 S3 c G V q Hq)|]. destruct R as (e & He & R). destruct (w_evs S2 S3 c G V _ _ He) as (e' & He' & R' & _). exists e'. split; [exact He'|congruence].
  - exfalso. rewrite Et, Eo in A. destruct A as [(? & ? & D)|(? & D)]; discriminate.
Qed.
Lemma own_heir n S2 c : Gro S1 S2 -> Over p r c w S2 S3 -> isl (pcode r) -> (forall m, locl m c -> firm c) -> locl n (pcode r) -> mine n -> rint p S -> exists p', payer p' S3.
Proof.
  intros G V Il Lf Ln Hm (q & Hq & R). destruct (b_hid _ _ _ HB q p r n Hq R Hr Ln Hm) as (q' & p' & _ & _ & _ & Hh). exists p'. apply heir_payer. refine (proj1 (w_heir S2 S3 c G V Lf _ p' Hh)). intros n' p1 x Hc. rewrite Hc in Il. contradiction.
Qed.

Lemma local_runs isproc n g v Sx S2 nx : (pcode r = KLocal0 isproc n g \/ exists e, pcode r = KLocal isproc n e g) -> o = Good v -> go_on O p (pcode r) o S1 = local_next isproc n g Sx -> local_next isproc n g Sx = (S2, inl nx) ->
  Fr (fun _ => False) S1 Sx -> Bz S3.
Proof.
  intros Hc Eo Hg0 He0 F. assert (Hg : go_on O p (pcode r) o S1 = (S2, inl nx)) by congruence.
  assert (L1 : LU S1) by (apply (LU_same S); [reflexivity|reflexivity|exact (b_lu _ _ _ HB)]). pose proof (fr_lu _ _ _ F L1) as Lx.
  pose proof (fr_prs _ _ _ F) as Ep. change (prs S1) with (prs S) in Ep. pose proof (fr_ss _ _ _ F) as Es. change (ss S1) with (ss S) in Es.
  assert (Il : isl (pcode r)) by (destruct Hc as [->|(e & ->)]; exact I). assert (Nx : forall n' q, pcode r <> KExtraPro n' q) by (intros n' q D; rewrite D in Il; exact Il).
  unfold local_next in He0. rewrite Es in He0. destruct (resume g (ss S)) as [[s' ns] oc] eqn:Er. cbv zeta in He0.
  assert (Hl : forall S0 n' p' x, pcode r = KExtraPro n' p' -> proc_at p' S = Some x -> pcode x = KEnd \/ rint p' S0) by (intros S0 n' p' x D; elim (Nx _ _ D)).
  assert (S2p : prs S2 = prs S /\ ss S2 = s' /\ LU S2 /\ forall q B, In q (heap S2) -> role_at (qev q) (RInt B) S2 -> In q (heap S) /\ role_at (qev q) (RInt B) S).
  { set (Sy := set_ss s' Sx) in *. assert (Ly : LU Sy) by (apply (LU_same Sx); [reflexivity|reflexivity|exact Lx]).
    assert (B0 : prs Sy = prs S /\ ss Sy = s' /\ LU Sy /\ forall q B, In q (heap Sy) -> role_at (qev q) (RInt B) Sy -> In q (heap S) /\ role_at (qev q) (RInt B) S).
    { split; [exact Ep|]. split; [reflexivity|]. split; [exact Ly|]. intros q B Hq R. destruct (fr_int _ _ _ F q B L1 Hq R) as [X|[]]. exact X. }
    destruct oc as [|x|e k|k]; [injection He0 as <- _; exact B0|discriminate| |injection He0 as <- _; exact B0].
    revert He0. unfold bind. rewrite timeout_eq. destruct (Z.ltb (etime e - now Sy) 0); [discriminate|]. cbn [ret]. intros [= <- _]. destruct B0 as (B1 & B2 & B3 & B4). split; [exact B1|]. split; [exact B2|]. split; [apply LU_new; [discriminate|discriminate|exact Ly]|].
    intros q B Hq R. assert (Fn : Fr (fun _ => False) Sy (queued NORMAL (etime e - now Sy) (List.length (evs Sy)) (added (MkEvt (RTime (now Sy + (etime e - now Sy))) (Some (Good XUnit)) false (Some [])) Sy))) by (apply Fr_new; cbn; discriminate).
    destruct (fr_int _ _ _ Fn q B Ly Hq R) as [[X Y]|[]]. exact (B4 q B X Y). }
  destruct S2p as (Ep2 & Es2 & L2 & Int2).
  assert (Pa : forall p', proc_at p' S2 = proc_at p' S) by (intros p'; unfold proc_at; rewrite Ep2; reflexivity).
  pose proof (b_code _ _ _ HB p r Hr) as Td.
  assert (Ks : keepsq (ss S) s').
  { assert (exists z b h, pay z b i h g) as (z & b & h & P).
    { destruct isproc; destruct Hc as [D|(e & D)]; rewrite D in Td; cbn [FreeSteps.tidy] in Td; [exists true, false, false; exact Td|destruct Td as (h & P); exists true, false, h; exact P| |];
      (destruct Td as [Ta Tb]; destruct (mine_dec i nm n) as [Hm|Nm]; [destruct (Ta Hm) as (b & h & P & _); eauto|exists false, true, false; exact (Tb Nm)]). }
    exact (proj1 (resume_pays g z b i h (ss S) s' ns oc (P (ss S)) Er)). }
  assert (Nm2 : named (ss S2)) by (rewrite Es2; exact (named_keeps nm _ _ Ks (b_names _ _ _ HB))).
  assert (Qk : qd i (ss S) -> qd i (ss S2)) by (rewrite Es2; apply qd_keeps; exact Ks).
  pose proof parts_inv as HI3.
  (* what is left to show *)
  assert (Fin : forall c, Gro S1 S2 -> Over p r c w S2 S3 -> (forall m, locl m c -> firm c) -> tidy p S3 c ->
    (forall e g0 m, pkind r = Some (GLocal false m) -> event_at (pown r) S3 = Some e -> evalue e = Some (Good (XCont g0)) -> good m g0) ->
    (forall b h, isproc = false -> mine n -> pay true b i h g -> (b = true -> linked n p S) -> working i s' -> Cause S3 \/ (h = false /\ working i (ss S))) ->
    (isproc = false -> ~ mine n -> pay false true i false g -> working i s' -> Cause S3 \/ working i (ss S)) ->
    (forall h, isproc = true -> pay true false i h g -> working i s' -> Cause S3 \/ (h = false /\ working i (ss S))) -> Bz S3).
  { intros c G V Lf Tc Hv W1 W2 W3. apply (wait_Bz S2 S3 c G V HI3); auto.
    - intros n' p' x D. elim (Nx _ _ D).
    - intros p' x Hx. left. rewrite <- Pa. exact Hx.
    - rewrite Es2. intros W.
      assert (Fall : working i (ss S) -> Cause S3).
      { intros W0. apply (loc_cause S2 c G V Il Qk); [| |exact (b_work _ _ _ HB W0)].
        - intros (m & g1 & A & Hm & b & P & Lb). assert (E : isproc = false /\ m = n /\ g1 = g).
          { destruct A as [(x & Hx & Cx)|(e & x & Hx & Cx)]; assert (x = r) by congruence; subst x; destruct Hc as [D|(e' & D)]; rewrite D in Cx; try discriminate; injection Cx; intros; subst; auto. }
          destruct E as (Eb & -> & ->). destruct (W1 b true Eb Hm P Lb W) as [X|[D _]]; [exact X|discriminate].
        - intros m e g1 D P. assert (E : isproc = true /\ g1 = g) by (destruct Hc as [D'|(e' & D')]; rewrite D' in D; try discriminate; injection D; intros; subst; auto). destruct E as [Eb ->].
          destruct (W3 true Eb P W) as [X|[D' _]]; [exact X|discriminate]. }
      destruct isproc.
      + assert (Th : exists h, pay true false i h g) by (destruct Hc as [D|(e & D)]; rewrite D in Td; cbn [FreeSteps.tidy] in Td; eauto). destruct Th as (h & P). destruct (W3 h eq_refl P W) as [X|[_ X]]; auto.
      + assert (Th : tidyg i nm n p g S) by (destruct Hc as [D|(e & D)]; rewrite D in Td; exact Td). destruct Th as [Ta Tb]. destruct (mine_dec i nm n) as [Hm|Nm].
        * destruct (Ta Hm) as (b & h & P & Lb). destruct (W1 b h eq_refl Hm P Lb W) as [X|[_ X]]; auto.
        * destruct (W2 eq_refl Nm (Tb Nm) W) as [X|X]; auto. }
  assert (Th : isproc = false -> tidyg i nm n p g S) by (intros ->; destruct Hc as [D|(e & D)]; rewrite D in Td; exact Td).
  assert (Tp : isproc = true -> exists h, pay true false i h g) by (intros ->; destruct Hc as [D|(e & D)]; rewrite D in Td; cbn [FreeSteps.tidy] in Td; eauto).
  assert (Ln : isproc = false -> locl n (pcode r)) by (intros ->; destruct Hc as [D|(e & D)]; rewrite D; reflexivity).
  assert (Kn : isproc = false -> pkind r = Some (GLocal false n)).
  { intros ->. destruct (i_kind _ HI p r Hr) as [[D|D] _]; [contradiction|]. rewrite D. destruct Hc as [D'|(e & D')]; rewrite D'; reflexivity. }
  assert (Kt : isproc = true -> forall m, pkind r <> Some (GLocal false m)).
  { intros -> m. destruct (i_kind _ HI p r Hr) as [[D|D] _]; [contradiction|]. rewrite D. destruct Hc as [D'|(e & D')]; rewrite D'; discriminate. }
  assert (Af : forall h s0, after i h false s0 s' -> working i s' -> qd i s' \/ (h = false /\ working i s0)) by (intros h s0 [D|A] W; [discriminate|auto]).
  assert (Qd : forall c, Over p r c w S2 S3 -> qd i s' -> Cause S3) by (intros c V Q0; left; rewrite (ov_ss _ _ _ _ _ _ V), Es2; exact Q0).
  destruct oc as [|x|e k|k].
  - (* it is over *)
    injection He0 as <- <-. destruct (parts_done _ _ Hg L2) as (G & V & (eo & Heo & Veo)). apply (Fin KEnd G V); auto; try (exact I).
    + intros e' g0 m _ He' Hv'. exfalso. assert (e' = eo) by congruence. subst e'. destruct isproc; congruence.
    + intros b h _ _ P _ W. destruct (resume_pays g _ _ _ _ _ _ _ _ (P (ss S)) Er) as [_ A]. cbn in A. destruct (Af _ _ A W) as [X|X]; [left; exact (Qd _ V X)|right; exact X].
    + intros _ _ P W. destruct (resume_pays g _ _ _ _ _ _ _ _ (P (ss S)) Er) as [_ A]. cbn in A. destruct (Af _ _ A W) as [X|[_ X]]; [left; exact (Qd _ V X)|right; exact X].
    + intros h _ P W. destruct (resume_pays g _ _ _ _ _ _ _ _ (P (ss S)) Er) as [_ A]. cbn in A. destruct (Af _ _ A W) as [X|X]; [left; exact (Qd _ V X)|right; exact X].
  - discriminate.
  - (* it waits *)
    assert (En : exists ev0, nx = NWait (KLocal isproc n e k) ev0). { revert He0. unfold bind. rewrite timeout_eq. destruct (Z.ltb _ 0); [discriminate|]. cbn [ret]. intros [= _ <-]. eauto. }
    destruct En as (ev0 & ->). destruct (parts_wait _ _ _ Hg L2) as (G & V). destruct (ov_p _ _ _ _ _ _ V) as (tg & Hr3).
    assert (Lk : isproc = false -> linked n p S -> linked n p S3). { intros _ Lp. destruct (own_linked n v S2 _ G V Il Eo Lp) as [X|[_ X]]; [left; exact X|right; left; exact X]. }
    apply (Fin (KLocal isproc n e k) G V).
    + intros m _. exact I.
    + cbn [FreeSteps.tidy]. destruct isproc.
      * destruct (Tp eq_refl) as (h & P). destruct (resume_pays g _ _ _ _ _ _ _ _ (P (ss S)) Er) as [_ (h' & _ & P' & _)]. exists h'. exact P'.
      * destruct (Th eq_refl) as [Ta Tb]. split.
        { intros Hm. destruct (Ta Hm) as (b & h & P & Lb). destruct (resume_pays g _ _ _ _ _ _ _ _ (P (ss S)) Er) as [_ (h' & _ & P' & _)]. exists b, h'. auto. }
        { intros Nm. destruct (resume_pays g _ _ _ _ _ _ _ _ (Tb Nm (ss S)) Er) as [_ (h' & Z & P' & _)]. rewrite (Z eq_refl eq_refl) in P'. exact P'. }
    + exact (own_open S2 S3 _ V HI3 ltac:(discriminate)).
    + intros b h Eb Hm P Lb W. destruct (resume_pays g _ _ _ _ _ _ _ _ (P (ss S)) Er) as [_ (h' & _ & P' & A)]. destruct h'.
      * left. right; left. exists p, n, k. split; [right; exists e; eexists; split; [exact Hr3|rewrite Eb; reflexivity]|]. split; [exact Hm|]. exists b. auto.
      * destruct (Af _ _ A W) as [X|X]; [left; exact (Qd _ V X)|right; exact X].
    + intros Eb Nm P W. destruct (resume_pays g _ _ _ _ _ _ _ _ (P (ss S)) Er) as [_ (h' & Z & P' & A)]. rewrite (Z eq_refl eq_refl) in A. destruct (Af _ _ A W) as [X|[_ X]]; [left; exact (Qd _ V X)|right; exact X].
    + intros h Eb P W. destruct (resume_pays g _ _ _ _ _ _ _ _ (P (ss S)) Er) as [_ (h' & _ & P' & A)]. destruct h'.
      * left. right; right; right. exists p, n, e, k. split; [eexists; split; [exact Hr3|rewrite Eb; reflexivity]|exact P'].
      * destruct (Af _ _ A W) as [X|X]; [left; exact (Qd _ V X)|right; exact X].
  - (* it asks to be continued *)
    injection He0 as <- <-. destruct (parts_done _ _ Hg L2) as (G & V & (eo & Heo & Veo)). destruct (ov_p _ _ _ _ _ _ V) as (tg & Hr3).
    apply (Fin KEnd G V); auto; try (exact I).
    + intros e' g0 m Km He' Hv'. assert (e' = eo) by congruence. subst e'. assert (g0 = k) by congruence. subst g0. destruct isproc; [elim (Kt eq_refl m Km)|]. assert (m = n) by (rewrite (Kn eq_refl) in Km; congruence). subst m. destruct (Th eq_refl) as [Ta Tb]. split.
      * intros Hm. destruct (Ta Hm) as (b & h & P & Lb). destruct (resume_pays g _ _ _ _ _ _ _ _ (P (ss S)) Er) as [_ (_ & h' & _ & P' & _)]. eauto.
      * intros Nm. destruct (resume_pays g _ _ _ _ _ _ _ _ (Tb Nm (ss S)) Er) as [_ (_ & h' & Z & P' & _)]. rewrite (Z eq_refl eq_refl) in P'. exact P'.
    + intros b h Eb Hm P Lb W. destruct (resume_pays g _ _ _ _ _ _ _ _ (P (ss S)) Er) as [_ (Bt & h' & _ & P' & A)]. destruct h'.
      * left. destruct (own_linked n v _ _ G V Il Eo (Lb Bt)) as [(E & X)|[X _]].
        { right; right; left. exists E, n, p, k, (MkPrc (pkind r) (pown r) tg KEnd), eo. auto 7. }
        { right; left. apply (own_heir n _ _ G V Il); auto. }
      * destruct (Af _ _ A W) as [X|X]; [left; exact (Qd _ V X)|right; exact X].
    + intros Eb Nm P W. destruct (resume_pays g _ _ _ _ _ _ _ _ (P (ss S)) Er) as [_ (_ & h' & Z & P' & A)]. rewrite (Z eq_refl eq_refl) in A. destruct (Af _ _ A W) as [X|[_ X]]; [left; exact (Qd _ V X)|right; exact X].
    + intros h Eb P W. destruct (resume_pays g _ _ _ _ _ _ _ _ (P (ss S)) Er) as [_ (Bt & _)]. discriminate.
Qed.

Lemma local_struck n e g : pcode r = KLocal false n e g -> o = Bad TInterrupt -> Bz S3.
Proof.
  intros Hc Eo. assert (Il : isl (pcode r)) by (rewrite Hc; exact I). assert (Nx : forall n' q, pcode r <> KExtraPro n' q) by (intros n' q D; congruence).
  assert (Hg : go_on O p (pcode r) o S1 = (S1, inl (NDone XUnit))) by (rewrite Hc, Eo; reflexivity).
  assert (L1 : LU S1) by (apply (LU_same S); [reflexivity|reflexivity|exact (b_lu _ _ _ HB)]).
  destruct (parts_done _ _ Hg L1) as (G & V & (eo & Heo & Veo)). assert (Lf : forall m, locl m KEnd -> firm KEnd) by (intros m []).
  assert (Hl : forall n' p' x, pcode r = KExtraPro n' p' -> proc_at p' S = Some x -> pcode x = KEnd \/ rint p' S1) by (intros n' p' x D; elim (Nx _ _ D)).
  apply (wait_Bz S1 S3 KEnd G V parts_inv Lf Hl); auto.
  - intros W. apply (loc_cause S1 KEnd G V Il); [auto| | |exact (b_work _ _ _ HB W)].
    + intros (m & g1 & A & Hm & _). assert (m = n) by (destruct A as [(x & Hx & Cx)|(e1 & x & Hx & Cx)]; congruence). subst m.
      assert (Am : aimed p (todo S)) by (right; rewrite Et, Eo; eauto). destruct (b_hit _ _ _ HB p r n Am Hr) as (p' & Hh); [rewrite Hc; reflexivity|exact Hm|]. right; left. exists p'. apply heir_payer. exact (proj1 (w_heir S1 S3 KEnd G V Lf Hl p' Hh)).
    + intros m e1 g1 D. congruence.
  - exact I.
  - exact (b_names _ _ _ HB).
  - intros e1 g1 m _ He1 Hv1. congruence.
Qed.

(** ** The process of the rules has ended *)
Lemma main_goes f v S2 nx : pcode r = KProcPro f -> o = Good v -> go_on O p (pcode r) o S1 = (S2, inl nx) -> Bz S3.
Proof.
  intros Hc Eo Hg. pose proof Hg as Hg0. rewrite Hc, Eo in Hg0. cbn [go_on] in Hg0. unfold bind at 1, upd_ at 1 in Hg0. set (Sa := set_early None S1) in *.
  assert (Nl : ~ isl (pcode r)) by (rewrite Hc; exact (fun X => X)). assert (Nx : forall n' q, pcode r <> KExtraPro n' q) by (intros n' q D; congruence).
  assert (L1 : LU S1) by (apply (LU_same S); [reflexivity|reflexivity|exact (b_lu _ _ _ HB)]).
  assert (A1 : Acted S1) by (split; [exact (i_pact _ HI)|exact (i_acts _ HI)]).
  assert (Hx : exists Sx, Fr (fun _ => False) S1 Sx /\ early Sx = None /\ proc_loop p Sx = (S2, inl nx)).
  { destruct f.
    - exists Sa. split; [apply Fr_same; reflexivity|]. split; [reflexivity|]. exact Hg0.
    - set (Sb := added (MkEvt RAct None false (Some [])) Sa). exists (set_pact (List.length (evs Sa)) Sb). split; [|split; [reflexivity|exact Hg0]].
      assert (Fb : Fr (fun _ => False) S1 Sb) by (apply (Fr_trans _ _ Sa); [apply Fr_same; reflexivity|apply Fr_added; discriminate]). apply (Fr_trans _ _ Sb); [exact Fb|].
      refine (fr_upd _ (set_pact (List.length (evs Sa))) Sb eq_refl eq_refl eq_refl eq_refl eq_refl eq_refl _ (fr_acted _ _ _ Fb A1)). intros [_ B]. split; [|exact B]. exists (MkEvt RAct None false (Some [])). split; [|reflexivity]. change (event_at (List.length (evs Sa)) Sb = Some (MkEvt RAct None false (Some []))). unfold Sb. rewrite at_added, Nat.eqb_refl. reflexivity. }
  destruct Hx as (Sx & F & Ee & Hp). pose proof (fr_lu _ _ _ F L1) as Lx. pose proof (fr_prs _ _ _ F) as Ep. change (prs S1) with (prs S) in Ep. pose proof (fr_ss _ _ _ F) as Es. change (ss S1) with (ss S) in Es. pose proof (fr_ext _ _ _ F) as Ex. change (extras S1) with (extras S) in Ex.
  unfold proc_loop, bind at 1, get in Hp. unfold get_started in Hp. rewrite Ee, Es in Hp. destruct (remove_procedural (sprocs (ss S))) as [l|] eqn:Rp.
  2:{ injection Hp as <- <-. apply (keep_wait Sx KProcAct (pact Sx) Hg); auto; try discriminate.
      - rewrite Es. apply keepsq_same; reflexivity.
      - rewrite Es. auto.
      - intros q B Hq R. destruct (fr_int _ _ _ F q B L1 Hq R) as [X|[]]. left. exact X.
      - intros n pro D. elim (Nx _ _ D). }
  set (Sy := put_started l Sx) in *. assert (Esy : Sy = set_ss (set_procs l (snext (ss S)) (ss S)) Sx) by (unfold Sy, put_started; rewrite Ee, Es; reflexivity).
  assert (Ly : LU Sy) by (rewrite Esy; apply (LU_same Sx); [reflexivity|reflexivity|exact Lx]). assert (Ay : Acted Sy) by (rewrite Esy; exact (fr_acted _ _ _ F A1)).
  unfold bind at 1, upd_ in Hp. fold Sy in Hp. unfold bind at 1 in Hp.
  set (X := fun B => exists n, dget (extras S) n = Some B).
  pose proof (fr_launch_all X (extras S) ltac:(intros n B D; exists n; exact D) p l Sy ltac:(rewrite Esy; exact Ex) Ay) as Fl. destruct (launch_all p l Sy) as [Sz [u|t]]; [|discriminate]. cbn [fst] in Fl.
  unfold zero, bind in Hp. rewrite timeout_eq in Hp. change (0 <? 0)%Z with false in Hp. cbn [ret] in Hp.
  set (St := queued NORMAL 0 (List.length (evs Sz)) (added (MkEvt (RTime (now Sz + 0)) (Some (Good XUnit)) false (Some [])) Sz)) in *.
  assert (Ft : Fr X Sy S2 /\ exists ev0, nx = NWait (KProcZero 4) ev0).
  { injection Hp as <- <-. split; [|eauto]. apply (Fr_trans _ _ Sz); [exact Fl|]. apply Fr_new; cbn; discriminate. }
  destruct Ft as (Ft & ev0 & ->).
  apply (keep_wait S2 (KProcZero 4) ev0 Hg); auto; try discriminate.
  - exact (fr_lu _ _ _ Ft Ly).
  - rewrite (fr_prs _ _ _ Ft), Esy. exact Ep.
  - rewrite (fr_ss _ _ _ Ft), Esy. apply (keepsq_removed (ss S) l); [exact Rp|reflexivity|reflexivity].
  - rewrite (fr_ss _ _ _ Ft), Esy. auto.
  - intros q B Hq R. destruct (fr_int _ _ _ Ft q B Ly Hq R) as [[Hq' R']|(n & Dn)].
    + rewrite Esy in Hq', R'. destruct (fr_int _ _ _ F q B L1 Hq' R') as [Y|[]]. left. exact Y.
    + right. intros x m Hx Lm. destruct (i_extras _ HI n B Dn) as (r0 & H0 & K0). assert (r0 = x) by congruence. subst r0. destruct (i_kind _ HI B x Hx) as [[D|D] _]; [rewrite D in Lm; exact Lm|].
      rewrite K0 in D. destruct (pcode x) as [| | | | | | | |[|]|[|]| | | | |]; cbn [locl kind_of] in *; try contradiction; discriminate.
  - intros n pro D. elim (Nx _ _ D).
Qed.

(** ** Everything together *)
Lemma time_goes j S2 nx : ~ isl (pcode r) -> (forall n pro, pcode r <> KExtraPro n pro) -> go_on O p (pcode r) o S1 = zero j S1 -> go_on O p (pcode r) o S1 = (S2, inl nx) -> Bz S3.
Proof.
  intros Nl Nx Hz Hg. pose proof Hg as Hp. rewrite Hz in Hp. unfold zero, bind in Hp. rewrite timeout_eq in Hp. change (0 <? 0)%Z with false in Hp. cbn [ret] in Hp.
  assert (L1 : LU S1) by (apply (LU_same S); [reflexivity|reflexivity|exact (b_lu _ _ _ HB)]).
  assert (Ft : Fr (fun _ => False) S1 S2 /\ exists ev0, nx = NWait (KProcZero j) ev0) by (injection Hp as <- <-; split; [apply Fr_new; cbn; discriminate|eauto]). destruct Ft as (Ft & ev0 & ->).
  apply (keep_wait S2 (KProcZero j) ev0 Hg); auto; try discriminate.
  - exact (fr_lu _ _ _ Ft L1).
  - exact (fr_prs _ _ _ Ft).
  - rewrite (fr_ss _ _ _ Ft). apply keepsq_same; reflexivity.
  - rewrite (fr_ss _ _ _ Ft). auto.
  - intros q B Hq R. destruct (fr_int _ _ _ Ft q B L1 Hq R) as [X|[]]. left. exact X.
  - intros n pro D. elim (Nx _ _ D).
Qed.
Lemma extra_plain n Sx S2 nx : xcode n (pcode r) -> go_on O p (pcode r) o S1 = extra_loop O n Sx -> go_on O p (pcode r) o S1 = (S2, inl nx) -> Fr (fun _ => False) S1 Sx -> early Sx = early S ->
  (forall n' pro, pcode r = KExtraPro n' pro -> exists v, o = Good v /\ forall g, v <> XCont g) -> Bz S3.
Proof.
  intros Xc Hx Hg F Ee Hw. apply (extra_next (fun _ => False) n Sx S2 nx Xc Hx); auto; [congruence| | | |].
  - intros n' p' x D Hp'. destruct (Hw _ _ D) as (v & Ev & _). left. exact (proj1 (valued_ended n' p' v x D Ev Hp')).
  - intros B [].
  - intros q B _ _ [].
  - intros pro D. left. exact (Hw _ _ D).
Qed.
Lemma extra_struck n pro S2 nx : pcode r = KExtraPro n pro -> o = Bad TInterrupt -> hits p S + 1 <= cnt n S -> go_on O p (pcode r) o S1 = (S2, inl nx) -> Bz S3.
Proof.
  intros Hc Eo Hcnt Hg. pose proof Hg as Hp. rewrite Hc, Eo in Hp. cbn [go_on] in Hp. unfold bind at 1, get in Hp. unfold bind at 1 in Hp.
  assert (Nn : forall Sx, early Sx = early S -> ss Sx = ss S -> take_proc n (get_started Sx) <> None).
  { intros Sx Ee Es Tk. apply take_none in Tk. unfold get_started in Tk. rewrite Ee, Es in Tk. destruct (early S) as [le|] eqn:El.
    - destruct (o_all _ K) as (a & _ & Se & _). destruct (s_early _ _ _ Se le El) as (_ & _ & Y). destruct (Y p r n Hr) as [[D|D] _]; [rewrite Hc; reflexivity|congruence|congruence].
    - unfold cnt in Hcnt. unfold count in Tk. lia. }
  pose proof (i_fits _ HI p r Hr) as Hf. rewrite Hc in Hf. cbn [fits] in Hf. destruct Hf as (x & Hx & Kx & Ox). destruct (i_own _ HI pro x Hx) as (e & He & _ & Ve).
  assert (Ee : ended pro S1 = match evalue e with Some _ => true | None => false end).
  { unfold ended, own_event, trig, triggered. change (nth_error (prs S1) pro) with (proc_at pro S). rewrite Hx. change (event_at (pown x) S1) with (event_at (pown x) S). rewrite He. reflexivity. }
  rewrite Ee in Hp.
  destruct (evalue e) as [ve|] eqn:Ev.
  - assert (Ke : pcode x = KEnd). { destruct (pcode x); try reflexivity; exfalso; assert (D : Some ve = None) by (apply Ve; discriminate); discriminate. }
    cbn [ret] in Hp. apply (extra_next (fun _ => False) n S1 S2 nx); auto.
    + rewrite Hc. reflexivity.
    + congruence.
    + apply Fr_refl.
    + intros n' p' y D Hy. assert (p' = pro) by congruence. subst p'. left. congruence.
    + intros B [].
  - unfold interrupt, bind at 1, get in Hp. rewrite Ee in Hp. destruct (Nat.eqb p pro) eqn:Epp; [discriminate|].
    set (ei := MkEvt (RInt pro) (Some (Bad TInterrupt)) true (Some [CInt pro])) in *.
    assert (Hp2 : extra_loop O n (queued URGENT 0 (List.length (evs S1)) (added ei S1)) = (S2, inl nx)) by exact Hp. set (Sx := queued URGENT 0 (List.length (evs S1)) (added ei S1)) in *.
    assert (L1 : LU S1) by (apply (LU_same S); [reflexivity|reflexivity|exact (b_lu _ _ _ HB)]).
    assert (At : event_at (List.length (evs S1)) Sx = Some ei) by (change (event_at (List.length (evs S1)) (added ei S1) = Some ei); rewrite at_added, Nat.eqb_refl; reflexivity).
    apply (extra_next (fun B => B = pro) n Sx S2 nx); auto.
    + rewrite Hc. reflexivity.
    + congruence.
    + apply Fr_new; try discriminate. intros B [= <-]. reflexivity.
    + intros n' p' y D Hy. assert (p' = pro) by congruence. subst p'. right. exists (MkQ (now S1 + 0) URGENT (eid S1) (List.length (evs S1))). split; [apply in_or_app; right; left; reflexivity|]. exists ei. split; [exact At|reflexivity].
    + intros B ->. split; [exact (pat_old _ _ _ Hx)|]. intros y m Hy Lm. assert (y = x) by congruence. subst y. destruct (i_kind _ HI pro x Hx) as [[D|D] _]; [rewrite D in Lm; contradiction|].
      rewrite Kx in D. destruct (pcode x) as [| | | | | | | |[|] m0 g0|[|] m0 e0 g0| | | | |]; cbn [locl kind_of] in *; try contradiction; congruence.
    + intros q B Hq R ->. apply in_app_or in Hq. destruct Hq as [Hq|[<-|[]]].
      * left. split; [exact Hq|]. destruct R as (e0 & He0 & R). change (event_at (qev q) (added ei S1) = Some e0) in He0. rewrite at_added in He0. destruct (Nat.eqb_spec (qev q) (List.length (evs S1))) as [E|_]; [|exists e0; auto].
        exfalso. destruct (lu_live _ L1 q Hq) as (y & Y & _). apply at_old in Y. lia.
      * right. cbn [qtime qprio qid]. change (now Sx) with (now S1). change (eid Sx) with (Datatypes.S (eid S1)). split; [cbn [qtime]; unfold Sx; cbn [now queued added set_queue set_evs]; lia|]. split; [reflexivity|exact (Nat.lt_succ_diag_r (eid S1))].
Qed.

Theorem run_keeps S2 nx : go_on O p (pcode r) o S1 = (S2, inl nx) -> Bz S3.
Proof.
  intros Hg. destruct (o_all _ K) as (a & Q & Se & _ & Td). unfold Todo in Td. rewrite Et in Td. destruct Td as (_ & r1 & Hr1 & _ & Ac). assert (r1 = r) by congruence. subst r1. clear Hr1. pose proof (q_who _ _ Q p r Hr) as Wh.
  assert (Do : (exists v, o = Good v) \/ exists t, o = Bad t) by (destruct o; eauto). assert (Dc : exists c, pcode r = c) by eauto. destruct Dc as (c & Hc). rewrite Hc in Hg, Ac, Wh.
  destruct c as [|f| |[|j]|n|n|n pro|n pro|b n g|b n e g| | | | |]; cbn [who] in Wh; try contradiction; (destruct Do as [(v & Eo)|(t & Eo)]; rewrite Eo in Hg, Ac; [|destruct t as [x| |]; try discriminate Hg; cbn [Act] in Ac; try contradiction]).
  - apply (main_starts true); rewrite ?Hc, ?Eo; [exact (fun X => X)|discriminate|reflexivity].
  - apply (main_goes f v S2 nx); rewrite ?Hc, ?Eo; auto.
  - apply (time_goes 4 S2 nx); rewrite ?Hc, ?Eo; [exact (fun X => X)|discriminate|reflexivity|exact Hg].
  - apply (main_starts false); rewrite ?Hc, ?Eo; [exact (fun X => X)|discriminate|reflexivity].
  - apply (time_goes j S2 nx); rewrite ?Hc, ?Eo; [exact (fun X => X)|discriminate|reflexivity|exact Hg].
  - apply (extra_plain n S1 S2 nx); rewrite ?Hc, ?Eo; try reflexivity; [exact Hg|apply Fr_refl|discriminate].
  - set (Sb := added (MkEvt RAct None false (Some [])) S1). assert (A1 : Acted S1) by (split; [exact (i_pact _ HI)|exact (i_acts _ HI)]).
    apply (extra_plain n (set_acts (dset (acts Sb) n (List.length (evs S1))) Sb) S2 nx); rewrite ?Hc, ?Eo; try reflexivity; [exact Hg| |discriminate].
    assert (Fb : Fr (fun _ => False) S1 Sb) by (apply Fr_added; discriminate). apply (Fr_trans _ _ Sb); [exact Fb|].
    refine (fr_upd _ (fun S => set_acts (dset (acts S) n (List.length (evs S1))) S) Sb eq_refl eq_refl eq_refl eq_refl eq_refl eq_refl _ (fr_acted _ _ _ Fb A1)). intros [A B]. split; [exact A|].
    intros m ev0 D. cbn [acts set_acts] in D. rewrite dget_dset in D. destruct (String.eqb_spec n m) as [->|_]; [|exact (B m ev0 D)]. injection D as <-. exists (MkEvt RAct None false (Some [])). split; [|reflexivity]. change (event_at (List.length (evs S1)) Sb = Some (MkEvt RAct None false (Some []))). unfold Sb. rewrite at_added, Nat.eqb_refl. reflexivity.
  - destruct v as [| |g]; [| |apply (extra_continues n pro g); auto].
    + apply (extra_plain n S1 S2 nx); rewrite ?Hc, ?Eo; try reflexivity; [exact Hg|apply Fr_refl|]. intros n' q _. exists XUnit. split; [reflexivity|discriminate].
    + apply (extra_plain n S1 S2 nx); rewrite ?Hc, ?Eo; try reflexivity; [exact Hg|apply Fr_refl|]. intros n' q _. exists XProcs. split; [reflexivity|discriminate].
  - apply (extra_struck n pro S2 nx); rewrite ?Hc, ?Eo; auto.
  - apply (extra_plain n S1 S2 nx); rewrite ?Hc, ?Eo; try reflexivity; [exact Hg|apply Fr_refl|discriminate].
  - apply (extra_plain n S1 S2 nx); rewrite ?Hc, ?Eo; try reflexivity; [exact Hg|apply Fr_refl|discriminate].
  - apply (local_runs b n g v S1 S2 nx); rewrite ?Hc, ?Eo; auto. apply Fr_refl.
  - cbn [go_on] in Hg. set (m := note e ;! activate e ;! interact). 
    assert (Hm : exists Sx, Fr (fun _ => False) S1 Sx /\ local_next b n g Sx = (S2, inl nx) /\ go_on O p (KLocal b n e g) (Good v) S1 = local_next b n g Sx).
    { assert (A1 : Acted S1) by (split; [exact (i_pact _ HI)|exact (i_acts _ HI)]). cbn [go_on].
      pose proof (fr_note (fun _ => False) e S1 A1) as F1. unfold bind at 1 in Hg. unfold bind at 1. destruct (note e S1) as [Sa [u|t]]; [|discriminate]. cbn [fst] in F1.
      pose proof (fr_activate (fun _ => False) e Sa (fr_acted _ _ _ F1 A1)) as F2. unfold bind at 1 in Hg. unfold bind at 1. destruct (activate e Sa) as [Sb [u2|t]]; [|discriminate]. cbn [fst] in F2. pose proof (Fr_trans _ _ _ _ F1 F2) as F12.
      pose proof (fr_interact (fun _ => False) Sb ltac:(rewrite (fr_env _ _ _ F12); exact (o_env _ K)) (fr_acted _ _ _ F12 A1)) as F3. unfold bind in Hg. unfold bind. destruct (interact Sb) as [Sd [u3|t]]; [|discriminate]. cbn [fst] in F3.
      exists Sd. split; [exact (Fr_trans _ _ _ _ F12 F3)|]. split; [exact Hg|reflexivity]. }
    destruct Hm as (Sx & F & Hx & Hy). apply (local_runs b n g v Sx S2 nx); rewrite ?Hc, ?Eo; auto. right. exists e. reflexivity.
  - destruct b; [contradiction|]. apply (local_struck n e g); auto.
Qed.
End Step.
End Module.
