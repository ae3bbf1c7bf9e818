(** Accounts for the steps of a simulation: every process, every entry of the queue and every piece of work is given a
    number, and the code of processes does not spend more than what is there. *)
From Coq Require Import Lia.
From Verif Require Import Base BaseFacts Chunks DecMem Buffers BufferFacts Productions ProdSpec CycleFacts LearnFacts Sim SimFacts SerialFacts StoryFacts CostFacts.
Local Open Scope string_scope.
Local Open Scope list_scope.
Local Open Scope nat_scope.

(** ** Sums over processes *)

Fixpoint psum (f : nat -> prc -> nat) (i : nat) (l : list prc) : nat :=
  match l with [] => 0 | r :: l' => f i r + psum f (S i) l' end.
Lemma psum_app f l : forall l' i, psum f i (l ++ l') = psum f i l + psum f (i + List.length l) l'.
Proof. induction l as [|r l IH]; intros l' i; cbn [psum app List.length]; [rewrite Nat.add_0_r; reflexivity|]. rewrite IH. replace (S i + List.length l) with (i + S (List.length l)) by lia. lia. Qed.
Lemma psum_le f g h l : forall i, (forall j r, nth_error l j = Some r -> f (i + j) r <= g (i + j) r + h (i + j) r) -> psum f i l <= psum g i l + psum h i l.
Proof.
  induction l as [|r l IH]; intros i H; cbn [psum]; [lia|]. pose proof (H 0 r eq_refl) as A. rewrite Nat.add_0_r in A.
  assert (B : psum f (S i) l <= psum g (S i) l + psum h (S i) l). { apply IH. intros j x Hx. replace (S i + j) with (i + S j) by lia. apply H. exact Hx. }
  lia.
Qed.
Lemma psum_zero l : forall i, psum (fun _ _ => 0) i l = 0.
Proof. induction l; intros i; cbn; auto. Qed.
Lemma psum_mono f g l i : (forall j r, nth_error l j = Some r -> f (i + j) r <= g (i + j) r) -> psum f i l <= psum g i l.
Proof. intros H. pose proof (psum_le f g (fun _ _ => 0) l i) as A. rewrite psum_zero in A. rewrite Nat.add_0_r in A. apply A. intros j r Hr. specialize (H j r Hr). lia. Qed.
Lemma psum_ext f g l i : (forall j r, nth_error l j = Some r -> f (i + j) r = g (i + j) r) -> psum f i l = psum g i l.
Proof. intros H. apply Nat.le_antisymm; apply psum_mono; intros j r Hr; rewrite (H j r Hr); lia. Qed.
Lemma psum_upd f r' l : forall i p r, nth_error l p = Some r -> psum f i (upd l p r') + f (i + p) r = psum f i l + f (i + p) r'.
Proof.
  induction l as [|x l IH]; intros i [|p] r H; cbn [nth_error] in H; try discriminate; cbn [upd psum].
  - injection H as ->. rewrite Nat.add_0_r. lia.
  - specialize (IH (S i) p r H). replace (i + S p) with (S i + p) by lia. lia.
Qed.
Lemma psum_const (c : prc -> nat) l : forall i, psum (fun _ r => c r) i l = list_sum (map c l).
Proof. induction l as [|r l IH]; intros i; cbn; [reflexivity|]. rewrite IH. reflexivity. Qed.

(** ** What there is *)

Section Bill.
(** An upper bound for what has to be paid when processes are activated. *)
Variable AM : nat.

(** Processes that wait until they are activated. *)
Definition actwt (c : code) : nat := match c with KProcAct => 60 | KExtraAct _ => 3 | _ => 0 end.
Definition cap (k : option pkind_) : nat := match k with Some GMain => 60 | Some (GExtra _) => 3 | _ => 0 end.

Definition YY := AM + 12.
Definition ZZ := AM + 8.
Definition LW := YY * CC + ZZ.
Definition VV := AM + 2 * LW + 40.

Definition cb_cost (c : cb) : nat := match c with CResume _ => 3 | CInt _ => 6 | CCheck _ => AM + 4 end.
Definition evcost (e : evt) : nat := list_sum (map cb_cost (cbs_of e)).
Definition wk_cost (w : work) : nat :=
  match w with WCb _ (CResume _) => 2 | WCb _ (CInt _) => 5 | WCb _ (CCheck _) => AM + 3 | WRun _ _ => 1 | WEnd _ => 1 end.
Definition early_of (S : sim) : list proc := match early S with Some l => l | None => [] end.
Definition base (S : sim) : nat :=
  2 * List.length (heap S) + list_sum (map evcost (evs S)) + list_sum (map wk_cost (todo S)) +
  VV * (ocount (sprocs (ss S)) + ocount (early_of S)).
Definition pps (S : sim) : nat := pcount (sprocs (ss S)) + pcount (early_of S).

Definition is_x (x : option nat) (i : nat) : bool := match x with Some p => Nat.eqb i p | None => false end.
Definition share (x : option nat) (ks : nat -> nat) (S : sim) (i : nat) (r : prc) : nat :=
  if is_x x i then 0 else ks i + (if trig S (ptarget r) then actwt (pcode r) else 0).
Definition core (x : option nat) (ks : nat -> nat) (S : sim) : nat := base S + psum (share x ks S) 0 (prs S).

(** What holds while the process [x] goes on. *)
Record K (x : option nat) (S : sim) : Prop := MkK {
  k_cap : forall i r, proc_at i S = Some r -> actwt (pcode r) <= cap (pkind r);
  k_sum : list_sum (map (fun r => cap (pkind r)) (prs S)) <= AM;
  k_tgt : forall i r, proc_at i S = Some r -> is_x x i = false -> actwt (pcode r) <> 0 ->
            role_at (ptarget r) RAct S /\ (hasenv S = true -> ptarget r <> eact S);
  k_eact : hasenv S = true -> role_at (eact S) RAct S /\ pact S <> eact S /\ forall n ev, dget (acts S) n = Some ev -> ev <> eact S;
  k_pact : role_at (pact S) RAct S;
  k_acts : forall n ev, dget (acts S) n = Some ev -> role_at ev RAct S }.

Section Charge.
(** A bound on the number of buffers; whether procedural processes may be started. *)
Variable NN : nat.
Variable CY : bool.
Definition EE := NN * (VV + AM + 12) + 3 * AM + 60.
(** What a process needs. *)
Definition okw (c : code) (w : nat) : Prop :=
  match c with
  | KProc0 => 87 <= w
  | KProcPro first => (if first then 63 else 3) <= w
  | KProcZero k => 27 + 5 * k <= w
  | KExtra0 _ | KExtraCont _ _ => 6 <= w
  | KExtraPro _ _ => LW + 20 <= w
  | KLocal0 true _ _ => 16 <= w
  | KLocal0 false _ g | KLocal false _ _ g => exists k d, costs k d g /\ YY * k + VV * d + ZZ <= w
  | KEnv0 g | KEnvWait _ g => exists k d, costs k d g /\ EE * k + VV * d + 10 <= w
  | KEnvP0 _ => AM + 12 <= w
  | KEnvP _ => AM + 6 <= w
  | KProcAct | KExtraAct _ | KLocal true _ _ _ | KEnd => True
  end.

Record bill (ks : nat -> nat) (S : sim) (ks' : nat -> nat) (S' : sim) : Prop := MkBill {
  b_ks : forall i, i < List.length (prs S) -> ks' i = ks i;
  b_prs : exists new, prs S' = prs S ++ new /\ Forall (fun r => actwt (pcode r) = 0 /\ cap (pkind r) = 0) new;
  b_new : forall i r, List.length (prs S) <= i -> proc_at i S' = Some r -> okw (pcode r) (ks' i) /\ (CY = false -> ~ cyc (pcode r));
  b_roles : forall ev r, role_at ev r S -> role_at ev r S';
  b_now : now S' = now S;
  b_todo : todo S' = todo S;
  b_dead : dead S' = dead S;
  b_K : forall x, K x S -> K x S';
  b_hasenv : hasenv S' = hasenv S;
  b_settings : settings (ss S') = settings (ss S);
  b_pps : pps S' <= pps S;
  b_keep : forall ev o, value_of ev S = Some o -> value_of ev S' = Some o;
  b_cont : forall ev g, value_of ev S' = Some (Good (XCont g)) -> value_of ev S = Some (Good (XCont g)) }.

Lemma bill_refl ks S : bill ks S ks S.
Proof.
  constructor; auto.
  - exists []. rewrite app_nil_r. auto.
  - intros i r L H. unfold proc_at in H. apply nth_error_None in L. congruence.
Qed.
Lemma bill_trans ks S ks1 S1 ks2 S2 : bill ks S ks1 S1 -> bill ks1 S1 ks2 S2 -> bill ks S ks2 S2.
Proof.
  intros A B. destruct (b_prs _ _ _ _ A) as (n1 & E1 & F1). destruct (b_prs _ _ _ _ B) as (n2 & E2 & F2).
  constructor.
  - intros i L. rewrite (b_ks _ _ _ _ B), (b_ks _ _ _ _ A); auto. rewrite E1, app_length. lia.
  - exists (n1 ++ n2). split; [rewrite E2, E1, app_assoc; reflexivity|]. apply Forall_app. auto.
  - intros i r L H. destruct (Nat.lt_ge_cases i (List.length (prs S1))) as [L1|L1].
    + rewrite (b_ks _ _ _ _ B) by exact L1. apply (b_new _ _ _ _ A); [exact L|]. unfold proc_at in *. rewrite E2, nth_error_app1 in H by exact L1. exact H.
    + apply (b_new _ _ _ _ B); assumption.
  - intros ev r H. apply (b_roles _ _ _ _ B), (b_roles _ _ _ _ A). exact H.
  - rewrite (b_now _ _ _ _ B). apply A.
  - rewrite (b_todo _ _ _ _ B). apply A.
  - rewrite (b_dead _ _ _ _ B). apply A.
  - intros x H. apply (b_K _ _ _ _ B), (b_K _ _ _ _ A). exact H.
  - rewrite (b_hasenv _ _ _ _ B). apply A.
  - rewrite (b_settings _ _ _ _ B). apply A.
  - pose proof (b_pps _ _ _ _ A). pose proof (b_pps _ _ _ _ B). lia.
  - intros ev o H. apply (b_keep _ _ _ _ B), (b_keep _ _ _ _ A). exact H.
  - intros ev g H. apply (b_cont _ _ _ _ A), (b_cont _ _ _ _ B). exact H.
Qed.
Lemma bill_proc ks S ks' S' i r : bill ks S ks' S' -> proc_at i S = Some r -> proc_at i S' = Some r.
Proof. intros B H. destruct (b_prs _ _ _ _ B) as (new & E & _). unfold proc_at in *. rewrite E, nth_error_app1; [exact H|]. apply nth_error_Some. congruence. Qed.
Lemma bill_K x ks S ks' S' : bill ks S ks' S' -> K x S -> K x S'.
Proof. intros B. apply B. Qed.
Lemma keep_K x (S S' : sim) new : prs S' = prs S ++ new -> Forall (fun r => actwt (pcode r) = 0 /\ cap (pkind r) = 0) new ->
  (forall ev r, role_at ev r S -> role_at ev r S') -> eact S' = eact S -> pact S' = pact S -> acts S' = acts S -> hasenv S' = hasenv S -> K x S -> K x S'.
Proof.
  intros E F R Ea Ep Es Eh H.
  assert (P : forall i r, proc_at i S' = Some r -> proc_at i S = Some r \/ (actwt (pcode r) = 0 /\ cap (pkind r) = 0)).
  { intros i r Hr. unfold proc_at in *. rewrite E in Hr. destruct (Nat.lt_ge_cases i (List.length (prs S))) as [L|L].
    - rewrite nth_error_app1 in Hr by exact L. auto.
    - right. rewrite nth_error_app2 in Hr by exact L. apply nth_error_In in Hr. rewrite Forall_forall in F. auto. }
  constructor.
  - intros i r Hr. destruct (P i r Hr) as [Hr'|[A _]]; [apply (k_cap _ _ H i r Hr')|lia].
  - rewrite E, map_app, list_sum_app. assert (Z : list_sum (map (fun r => cap (pkind r)) new) = 0).
    { clear -F. induction F as [|r l [_ A] F IH]; cbn; [reflexivity|]. rewrite A. exact IH. }
    rewrite Z. pose proof (k_sum _ _ H). lia.
  - intros i r Hr Hx Ha. destruct (P i r Hr) as [Hr'|[A _]]; [|congruence]. destruct (k_tgt _ _ H i r Hr' Hx Ha) as [Ro Ne].
    split; [apply R; exact Ro|]. rewrite Eh, Ea. exact Ne.
  - rewrite Eh, Ea, Ep, Es. intros He. destruct (k_eact _ _ H He) as (Ro & A & D). split; [apply R; exact Ro|auto].
  - rewrite Ep. apply R, H.
  - rewrite Es. intros n ev Hn. apply R, (k_acts _ _ H n ev Hn).
Qed.
Lemma mk_bill ks (S : sim) ks' S' :
  (forall i, i < List.length (prs S) -> ks' i = ks i) ->
  (exists new, prs S' = prs S ++ new /\ Forall (fun r => actwt (pcode r) = 0 /\ cap (pkind r) = 0) new) ->
  (forall i r, List.length (prs S) <= i -> proc_at i S' = Some r -> okw (pcode r) (ks' i) /\ (CY = false -> ~ cyc (pcode r))) ->
  (forall ev r, role_at ev r S -> role_at ev r S') ->
  now S' = now S -> todo S' = todo S -> dead S' = dead S -> eact S' = eact S -> pact S' = pact S -> acts S' = acts S -> hasenv S' = hasenv S ->
  settings (ss S') = settings (ss S) -> pps S' <= pps S ->
  (forall ev o, value_of ev S = Some o -> value_of ev S' = Some o) ->
  (forall ev g, value_of ev S' = Some (Good (XCont g)) -> value_of ev S = Some (Good (XCont g))) ->
  bill ks S ks' S'.
Proof. intros. constructor; auto. intros x. match goal with H : exists new, _ |- _ => destruct H as (new & E & F) end. apply (keep_K x S S' new); auto. Qed.

(** [m] leaves at most [B]. *)
Definition charge {A} (B : nat) (x : option nat) (m : M A) (ks : nat -> nat) (S : sim) (Q : A -> (nat -> nat) -> sim -> Prop) : Prop :=
  let '(S', r) := m S in exists ks', bill ks S ks' S' /\ match r with inl a => Q a ks' S' | inr _ => core x ks' S' + 2 <= B end.

Lemma c_bind {A C} B x (m : M A) (k : A -> M C) ks S Q1 Q : charge B x m ks S Q1 ->
  (forall a ks' S', bill ks S ks' S' -> Q1 a ks' S' -> charge B x (k a) ks' S' Q) -> charge B x (bind m k) ks S Q.
Proof.
  unfold charge, bind. destruct (m S) as [S1 [a|t]]; intros (ks1 & B1 & H1) H2; [|eauto].
  specialize (H2 a ks1 S1 B1 H1). destruct (k a S1) as [S2 r]. destruct H2 as (ks2 & B2 & H2). exists ks2. split; [eapply bill_trans; eauto|exact H2].
Qed.
Lemma c_ret {A} B x (a : A) ks S (Q : A -> (nat -> nat) -> sim -> Prop) : Q a ks S -> charge B x (ret a) ks S Q.
Proof. intros H. exists ks. split; [apply bill_refl|exact H]. Qed.
Lemma c_throw {A} B x t ks S (Q : A -> (nat -> nat) -> sim -> Prop) : core x ks S + 2 <= B -> charge B x (throw t) ks S Q.
Proof. intros H. exists ks. split; [apply bill_refl|exact H]. Qed.
Lemma c_get {A} B x (k : sim -> M A) ks S Q : charge B x (k S) ks S Q -> charge B x (bind get k) ks S Q.
Proof. intros H. exact H. Qed.
Lemma c_conseq {A} B x (m : M A) ks S (Q Q' : A -> (nat -> nat) -> sim -> Prop) : charge B x m ks S Q ->
  (forall a ks' S', bill ks S ks' S' -> Q a ks' S' -> Q' a ks' S') -> charge B x m ks S Q'.
Proof. unfold charge. destruct (m S) as [S1 [a|t]]; intros (ks1 & B1 & H1) H2; exists ks1; auto. Qed.

(** *** Changes of the state of the model *)

Lemma c_upd B x f ks S (Q : unit -> (nat -> nat) -> sim -> Prop) : prs (f S) = prs S -> evs (f S) = evs S -> heap (f S) = heap S -> now (f S) = now S -> todo (f S) = todo S ->
  dead (f S) = dead S -> eact (f S) = eact S -> pact (f S) = pact S -> acts (f S) = acts S -> hasenv (f S) = hasenv S ->
  settings (ss (f S)) = settings (ss S) -> pps (f S) <= pps S ->
  (bill ks S ks (f S) -> core x ks (f S) + VV * (ocount (sprocs (ss S)) + ocount (early_of S)) = core x ks S + VV * (ocount (sprocs (ss (f S))) + ocount (early_of (f S))) -> Q tt ks (f S)) ->
  charge B x (upd_ f) ks S Q.
Proof.
  intros E1 E2 E3 E4 E5 E6 E7 E8 E9 E10 E11 E12 H. unfold charge, upd_. exists ks.
  assert (Bl : bill ks S ks (f S)).
  { assert (Ev : forall ev, event_at ev (f S) = event_at ev S) by (intros ev; unfold event_at; rewrite E2; reflexivity).
    apply mk_bill; auto.
    - exists []. rewrite app_nil_r. auto.
    - intros i r L Hr. unfold proc_at in Hr. rewrite E1 in Hr. apply nth_error_None in L. congruence.
    - intros ev r (e & He & R). exists e. rewrite Ev. auto.
    - intros ev o. unfold value_of. rewrite Ev. auto.
    - intros ev g. unfold value_of. rewrite Ev. auto. }
  split; [exact Bl|]. apply H; [exact Bl|]. unfold core, base. rewrite E1, E2, E3, E5.
  rewrite (psum_ext (share x ks (f S)) (share x ks S)); [lia|]. intros j r _. unfold share, trig, event_at. rewrite E2. reflexivity.
Qed.

(** *** Events *)

Lemma role_lt ev r S : role_at ev r S -> ev < List.length (evs S).
Proof. intros (e & He & _). apply nth_error_Some. unfold event_at in He. congruence. Qed.
Lemma trig_value ev S : trig S ev = match value_of ev S with Some _ => true | None => false end.
Proof. unfold trig, value_of. destruct (event_at ev S) as [e|]; [|reflexivity]. unfold triggered. destruct (evalue e); reflexivity. Qed.

Lemma c_mk B x r v d cbs ks S (Q : nat -> (nat -> nat) -> sim -> Prop) : K x S -> (forall g, v <> Some (Good (XCont g))) ->
  (forall S', bill ks S ks S' -> core x ks S' <= core x ks S + list_sum (map cb_cost cbs) -> role_at (List.length (evs S)) r S' -> value_of (List.length (evs S)) S' = v ->
     prs S' = prs S -> (eact S' = eact S /\ pact S' = pact S /\ acts S' = acts S) -> Q (List.length (evs S)) ks S') ->
  charge B x (mk_event r v d cbs) ks S Q.
Proof.
  intros H Hv HQ. unfold charge, mk_event. set (S' := set_evs _ S). exists ks.
  assert (Old : forall ev, ev < List.length (evs S) -> event_at ev S' = event_at ev S) by (intros ev L; unfold event_at, S'; cbn [evs set_evs]; rewrite nth_error_app1 by exact L; reflexivity).
  assert (New : event_at (List.length (evs S)) S' = Some (MkEvt r v d (Some cbs))) by (unfold event_at, S'; cbn [evs set_evs]; apply nth_snoc_new).
  assert (Cs : forall ev e, event_at ev S' = Some e -> event_at ev S = Some e \/ (ev = List.length (evs S) /\ e = MkEvt r v d (Some cbs))) by (intros ev e He; apply nth_snoc in He; exact He).
  assert (Bl : bill ks S ks S').
  { apply mk_bill; try reflexivity.
    - exists []. rewrite app_nil_r. auto.
    - intros i p L Hr. apply nth_error_None in L. unfold proc_at in Hr. cbn [prs S' set_evs] in Hr. congruence.
    - intros ev r0 Hr. pose proof (role_lt _ _ _ Hr) as L. destruct Hr as (e & He & R). exists e. rewrite Old by exact L. auto.
    - intros ev o. unfold value_of. destruct (event_at ev S) as [e|] eqn:E; [|discriminate]. rewrite (nth_snoc_old _ _ _ _ E : event_at ev S' = Some e). auto.
    - intros ev g. unfold value_of. destruct (event_at ev S') as [e|] eqn:E; [|discriminate]. destruct (Cs _ _ E) as [->|[_ ->]]; [auto|]. cbn. intros X. elim (Hv _ X). }
  split; [exact Bl|]. apply HQ; auto.
  - unfold core, base, S'. cbn [heap evs todo ss prs set_evs early_of early]. change (early_of (set_evs _ S)) with (early_of S). rewrite map_app, list_sum_app. cbn [map list_sum fold_right]. unfold evcost at 2. cbn [cbs_of ecbs].
    assert (P : psum (share x ks S') 0 (prs S) <= psum (share x ks S) 0 (prs S)).
    { apply psum_mono. cbn [Nat.add]. intros j p Hp. unfold share. destruct (is_x x j) eqn:Ex; [lia|]. destruct (Nat.eq_dec (actwt (pcode p)) 0) as [Z|Nz].
      - rewrite Z. destruct (trig S' (ptarget p)), (trig S (ptarget p)); lia.
      - destruct (k_tgt _ _ H j p Hp Ex Nz) as [R _]. unfold trig. rewrite Old by exact (role_lt _ _ _ R). lia. }
    fold S'. lia.
  - eexists. split; [exact New|reflexivity].
  - unfold value_of. rewrite New. reflexivity.
Qed.
Lemma c_schedule B x pr d ev ks S (Q : unit -> (nat -> nat) -> sim -> Prop) :
  (forall S', bill ks S ks S' -> core x ks S' = core x ks S + 2 -> evs S' = evs S -> prs S' = prs S -> Q tt ks S') -> charge B x (schedule pr d ev) ks S Q.
Proof.
  intros HQ. unfold charge, schedule, upd_. exists ks.
  match goal with |- bill ks S ks ?T /\ _ => assert (Bl : bill ks S ks T) end.
  { apply mk_bill; try reflexivity; auto.
    - exists []. rewrite app_nil_r. auto.
    - intros i r L Hr. unfold proc_at in Hr. apply nth_error_None in L. cbn [prs set_queue] in Hr. congruence. }
  split; [exact Bl|]. apply HQ; auto. unfold core, base. cbn [heap evs todo ss prs set_queue]. rewrite app_length. cbn [List.length].
  match goal with |- context[early_of ?T] => change (early_of T) with (early_of S) end.
  rewrite (psum_ext _ (share x ks S)); [lia|]. intros j r _. reflexivity.
Qed.

(** A change of an event that exists. *)
Definition untargeted (x : option nat) (ev : nat) (S : sim) : Prop :=
  forall i r, proc_at i S = Some r -> is_x x i = false -> actwt (pcode r) <> 0 -> ptarget r <> ev.
Lemma upd_event x ks S ev e e' : K x S -> event_at ev S = Some e -> erole e' = erole e ->
  (evalue e' = evalue e \/ (evalue e = None /\ forall g, evalue e' <> Some (Good (XCont g)))) ->
  let S' := set_evs (upd (evs S) ev e') S in
  bill ks S ks S' /\ core x ks S' + evcost e <= core x ks S + evcost e' + AM /\
  (evalue e' = evalue e \/ untargeted x ev S -> core x ks S' + evcost e <= core x ks S + evcost e').
Proof.
  intros H He Hr Hv S'.
  assert (At : forall i, event_at i S' = if Nat.eqb i ev then Some e' else event_at i S).
  { intros i. unfold event_at, S'. cbn [evs set_evs]. destruct (Nat.eqb_spec i ev) as [->|Ne]; [apply (upd_same _ _ _ e); exact He|apply upd_other; exact Ne]. }
  assert (Vo : forall i, i <> ev -> value_of i S' = value_of i S) by (intros i Ne; unfold value_of; rewrite At; destruct (Nat.eqb_spec i ev); [contradiction|reflexivity]).
  assert (Vn : value_of ev S' = evalue e') by (unfold value_of; rewrite At, Nat.eqb_refl; reflexivity).
  assert (Vp : value_of ev S = evalue e) by (unfold value_of; rewrite He; reflexivity).
  split; [|assert (Bs : base S' + evcost e = base S + evcost e')].
  { apply mk_bill; try reflexivity.
    - exists []. rewrite app_nil_r. auto.
    - intros i p L Hp. apply nth_error_None in L. unfold proc_at in Hp. cbn [prs S' set_evs] in Hp. congruence.
    - intros i r (y & Hy & R). unfold role_at. rewrite At. destruct (Nat.eqb_spec i ev) as [->|Ne]; [exists e'; split; [reflexivity|congruence]|eauto].
    - intros i o. destruct (Nat.eq_dec i ev) as [->|Ne]; [|rewrite Vo by exact Ne; auto]. rewrite Vn, Vp. destruct Hv as [->|[-> _]]; [auto|discriminate].
    - intros i g. destruct (Nat.eq_dec i ev) as [->|Ne]; [|rewrite Vo by exact Ne; auto]. rewrite Vn, Vp. destruct Hv as [->|[_ Hg]]; [auto|]. intros X. elim (Hg _ X). }
  { unfold base, S'. cbn [heap evs todo ss set_evs]. change (early_of (set_evs _ S)) with (early_of S). pose proof (list_sum_upd evcost (evs S) ev e e' He). lia. }
  assert (Tr : forall i, i <> ev -> trig S' i = trig S i) by (intros i Ne; rewrite !trig_value, Vo by exact Ne; reflexivity).
  split.
  - assert (P : psum (share x ks S') 0 (prs S) <= psum (share x ks S) 0 (prs S) + AM).
    { eapply Nat.le_trans; [apply (psum_le _ (share x ks S) (fun _ r => cap (pkind r)))|].
      - cbn [Nat.add]. intros j p Hp. unfold share. destruct (is_x x j) eqn:Ex; [lia|]. pose proof (k_cap _ _ H j p Hp). destruct (trig S' (ptarget p)), (trig S (ptarget p)); lia.
      - rewrite (psum_const (fun r => cap (pkind r))). pose proof (k_sum _ _ H). lia. }
    unfold core. cbn [prs S' set_evs]. fold S'. lia.
  - intros Hq. assert (P : psum (share x ks S') 0 (prs S) <= psum (share x ks S) 0 (prs S)).
    { apply psum_mono. cbn [Nat.add]. intros j p Hp. unfold share. destruct (is_x x j) eqn:Ex; [lia|]. destruct (Nat.eq_dec (actwt (pcode p)) 0) as [Z|Nz].
      - rewrite Z. destruct (trig S' (ptarget p)), (trig S (ptarget p)); lia.
      - assert (E : trig S' (ptarget p) = trig S (ptarget p)).
        { destruct (Nat.eq_dec (ptarget p) ev) as [Et|Ne]; [|apply Tr; exact Ne]. destruct Hq as [Hq|Hq]; [|elim (Hq j p Hp Ex Nz Et)]. rewrite !trig_value, Et, Vn, Vp, Hq. reflexivity. }
        rewrite E. lia. }
    unfold core. cbn [prs S' set_evs]. fold S'. lia.
Qed.
Lemma c_set_event B x ev f ks S (Q : unit -> (nat -> nat) -> sim -> Prop) d : K x S ->
  (forall e, erole (f e) = erole e) -> (forall e, evcost (f e) <= evcost e + d) ->
  (forall e, event_at ev S = Some e -> evalue (f e) = evalue e \/ (evalue e = None /\ forall g, evalue (f e) <> Some (Good (XCont g)))) ->
  (forall S', bill ks S ks S' -> core x ks S' <= core x ks S + d + AM -> ((forall e, evalue (f e) = evalue e) \/ untargeted x ev S -> core x ks S' <= core x ks S + d) ->
     prs S' = prs S -> List.length (evs S') = List.length (evs S) -> Q tt ks S') ->
  charge B x (set_event ev f) ks S Q.
Proof.
  intros H Hr Hc Hv HQ. unfold charge, set_event, upd_. exists ks. change (nth_error (evs S) ev) with (event_at ev S). destruct (event_at ev S) as [e|] eqn:He.
  - destruct (upd_event x ks S ev e (f e) H He (Hr e) (Hv e eq_refl)) as (Bl & C1 & C2). specialize (Hc e). split; [exact Bl|]. apply HQ; auto; [lia| |cbn [evs set_evs]; apply upd_length].
    intros Hq. assert (X : evalue (f e) = evalue e \/ untargeted x ev S) by (destruct Hq; auto). specialize (C2 X). lia.
  - split; [apply bill_refl|]. apply HQ; auto; try lia. apply bill_refl.
Qed.

Lemma evcost_same e e' : ecbs e' = ecbs e -> evcost e' = evcost e.
Proof. intros E. unfold evcost, cbs_of. rewrite E. reflexivity. Qed.
Lemma c_succeed B x ev ks S (Q : unit -> (nat -> nat) -> sim -> Prop) : K x S -> core x ks S + 2 <= B ->
  (forall S', bill ks S ks S' -> core x ks S' <= core x ks S + 2 + AM -> (untargeted x ev S -> core x ks S' <= core x ks S + 2) -> prs S' = prs S -> Q tt ks S') ->
  charge B x (succeed ev) ks S Q.
Proof.
  intros H L HQ. unfold succeed. apply c_get. destruct (trig S ev) eqn:Et; [apply c_throw; exact L|].
  eapply c_bind with (Q1 := fun _ ks' S' => ks' = ks /\ core x ks S' <= core x ks S + AM /\ (untargeted x ev S -> core x ks S' <= core x ks S) /\ prs S' = prs S).
  - apply (c_set_event B x ev _ ks S _ 0); auto; try reflexivity.
    + intros e. rewrite evcost_same with (e := e) by reflexivity. lia.
    + intros e He. right. unfold trig in Et. rewrite He in Et. unfold triggered in Et. destruct (evalue e); [discriminate|]. split; [reflexivity|]. cbn. intros g [=].
    + intros S' _ C1 C2 P _. split; [reflexivity|]. split; [lia|]. split; [|exact P]. intros U. specialize (C2 (or_intror U)). lia.
  - intros _ ks1 S1 B1 (-> & C1 & C2 & P1). apply c_schedule. intros S2 B2 C _ P2. apply HQ; [eapply bill_trans; eauto|lia| |congruence].
    intros U. specialize (C2 U). lia.
Qed.
Lemma c_timeout B x d ks S (Q : nat -> (nat -> nat) -> sim -> Prop) : K x S -> core x ks S + 2 <= B ->
  (forall ev S', bill ks S ks S' -> core x ks S' <= core x ks S + 2 -> role_at ev (RTime (now S + d)) S' -> prs S' = prs S -> Q ev ks S') ->
  charge B x (timeout d) ks S Q.
Proof.
  intros H L HQ. unfold timeout. destruct (Z.ltb d 0); [apply c_throw; exact L|]. apply c_get.
  eapply c_bind with (Q1 := fun ev ks' S' => ks' = ks /\ core x ks S' <= core x ks S /\ role_at ev (RTime (now S + d)) S' /\ prs S' = prs S).
  - apply c_mk; [assumption|intros g; discriminate|]. intros S' _ C R _ P _. cbn [map list_sum fold_right cb_cost] in C. repeat split; auto. lia.
  - intros ev ks1 S1 B1 (-> & C1 & R1 & P1). eapply c_bind with (Q1 := fun _ ks' S' => ks' = ks /\ core x ks S' <= core x ks S + 2 /\ role_at ev (RTime (now S + d)) S' /\ prs S' = prs S).
    + apply c_schedule. intros S2 B2 C _ P2. repeat split; [lia|apply (b_roles _ _ _ _ B2); exact R1|congruence].
    + intros _ ks2 S2 B2 (-> & C2 & R2 & P2). apply c_ret. apply HQ; auto. eapply bill_trans; eauto.
Qed.
Lemma c_spawn B x c w ks S (Q : nat -> (nat -> nat) -> sim -> Prop) : K x S -> okw c w -> (CY = false -> ~ cyc c) -> actwt c = 0 -> cap (kind_of c) = 0 ->
  (forall ks' S', bill ks S ks' S' -> core x ks' S' <= core x ks S + 5 + w ->
     (exists own init, prs S' = prs S ++ [MkPrc (kind_of c) own init c]) -> Q (List.length (prs S)) ks' S') ->
  charge B x (spawn c) ks S Q.
Proof.
  intros H Hn Hcy Ha Hk HQ. unfold spawn. apply c_get. cbv zeta.
  eapply c_bind with (Q1 := fun _ ks' S' => ks' = ks /\ core x ks S' <= core x ks S /\ prs S' = prs S).
  { apply c_mk; [assumption|intros g; discriminate|]. intros S' _ C _ _ P _. cbn [map list_sum fold_right cb_cost] in C. repeat split; auto. lia. }
  intros own ks1 S1 B1 (-> & C1 & P1). pose proof (bill_K _ _ _ _ _ B1 H) as H1.
  eapply c_bind with (Q1 := fun _ ks' S' => ks' = ks /\ core x ks S' <= core x ks S + 3 /\ prs S' = prs S).
  { apply c_mk; [assumption|intros g; discriminate|]. intros S' _ C _ _ P _. cbn [map list_sum fold_right cb_cost] in C. repeat split; auto; [lia|congruence]. }
  intros init ks2 S2 B2 (-> & C2 & P2). set (ks' := fun i => if Nat.eqb i (List.length (prs S)) then w else ks i).
  pose proof (bill_trans _ _ _ _ _ _ B1 B2) as B12.
  eapply c_bind with (Q1 := fun _ kz S' => kz = ks' /\ core x ks' S' <= core x ks S + 3 + w /\ prs S' = prs S ++ [MkPrc (kind_of c) own init c]).
  - unfold charge, upd_. exists ks'. set (S3 := set_prs (prs S2 ++ _) S2). split.
    + apply mk_bill; try reflexivity; auto.
      * intros i Li. unfold ks'. rewrite P2 in Li. destruct (Nat.eqb_spec i (List.length (prs S))); [lia|reflexivity].
      * eexists. split; [reflexivity|]. constructor; [|constructor]. cbn. auto.
      * intros i r Li Hr. unfold proc_at, S3 in Hr. cbn [prs set_prs] in Hr. apply nth_snoc in Hr. destruct Hr as [Hr|[-> ->]].
        { apply nth_error_None in Li. congruence. }
        unfold ks'. rewrite P2, Nat.eqb_refl. exact (conj Hn Hcy).
    + split; [reflexivity|]. split; [|unfold S3; cbn [prs set_prs]; rewrite P2; reflexivity].
      assert (E : core x ks' S3 <= core x ks S2 + w); [|lia]. unfold core.
      change (base S3) with (base S2). unfold S3. cbn [prs set_prs]. rewrite psum_app. cbn [psum]. fold S3.
      assert (A : psum (share x ks' S3) 0 (prs S2) = psum (share x ks S2) 0 (prs S2)).
      { apply psum_ext. cbn [Nat.add]. intros j r Hj. unfold share. change (trig S3 (ptarget r)) with (trig S2 (ptarget r)).
        assert (Lj : j < List.length (prs S2)) by (apply nth_error_Some; congruence).
        unfold ks'. rewrite P2 in Lj. destruct (Nat.eqb_spec j (List.length (prs S))); [lia|reflexivity]. }
      rewrite A. assert (D : share x ks' S3 (0 + List.length (prs S2)) (MkPrc (kind_of c) own init c) <= w).
      { unfold share. destruct (is_x x _); [lia|]. cbn [pcode ptarget]. rewrite Ha. unfold ks'. cbn [Nat.add]. rewrite P2, Nat.eqb_refl. destruct (trig S3 init); lia. }
      lia.
  - intros _ ks3 S3 B3 (-> & C3 & P3). eapply c_bind with (Q1 := fun _ kz S' => kz = ks' /\ core x ks' S' <= core x ks S + 5 + w /\ prs S' = prs S ++ [MkPrc (kind_of c) own init c]).
    + apply c_schedule. intros S4 B4 C _ P4. repeat split; [lia|congruence].
    + intros _ ks4 S4 B4 (-> & C4 & P4). apply c_ret. apply HQ; eauto. eapply bill_trans; [exact B12|]. eapply bill_trans; eauto.
Qed.
Lemma c_interrupt B x a p ks S (Q : unit -> (nat -> nat) -> sim -> Prop) : K x S -> core x ks S + 2 <= B ->
  (forall S', bill ks S ks S' -> core x ks S' <= core x ks S + 8 -> prs S' = prs S -> Q tt ks S') -> charge B x (interrupt a p) ks S Q.
Proof.
  intros H L HQ. unfold interrupt. apply c_get. destruct (ended p S); [apply c_throw; exact L|]. destruct (Nat.eqb a p); [apply c_throw; exact L|].
  eapply c_bind with (Q1 := fun _ ks' S' => ks' = ks /\ core x ks S' <= core x ks S + 6 /\ prs S' = prs S).
  - apply c_mk; [assumption|intros g; discriminate|]. intros S' _ C _ _ P _. cbn [map list_sum fold_right cb_cost] in C. repeat split; auto; lia.
  - intros ev ks1 S1 B1 (-> & C1 & P1). apply c_schedule. intros S2 B2 C _ P2. apply HQ; [eapply bill_trans; eauto|lia|congruence].
Qed.
Lemma c_add_cb B x ev c ks S (Q : unit -> (nat -> nat) -> sim -> Prop) : K x S ->
  (forall S', bill ks S ks S' -> core x ks S' <= core x ks S + cb_cost c -> prs S' = prs S -> Q tt ks S') -> charge B x (add_cb ev c) ks S Q.
Proof.
  intros H HQ. unfold add_cb. apply (c_set_event B x ev _ ks S _ (cb_cost c)); auto.
  - intros e. unfold evcost, cbs_of. cbn [ecbs]. destruct (ecbs e) as [l|]; [|lia]. rewrite map_app, list_sum_app. cbn. lia.
Qed.
Lemma c_defuse B x ev ks S (Q : unit -> (nat -> nat) -> sim -> Prop) : K x S ->
  (forall S', bill ks S ks S' -> core x ks S' <= core x ks S -> prs S' = prs S -> Q tt ks S') -> charge B x (defuse ev) ks S Q.
Proof.
  intros H HQ. unfold defuse. apply (c_set_event B x ev _ ks S _ 0); [exact H|reflexivity| |auto|].
  - intros e. rewrite evcost_same with (e := e) by reflexivity. lia.
  - intros S' Bl C1 C2 P _. apply HQ; auto. assert (X := C2 (or_introl (fun e => eq_refl))). lia.
Qed.
Lemma defuse_keeps ev S c : trig (fst (defuse ev S)) c = trig S c.
Proof.
  unfold defuse, set_event, upd_. cbn [fst]. unfold trig, event_at. destruct (nth_error (evs S) ev) as [e|] eqn:He; [|reflexivity]. cbn [evs set_evs].
  destruct (Nat.eq_dec c ev) as [->|Ne]; [rewrite (upd_same _ _ _ _ He), He; reflexivity|rewrite upd_other by exact Ne; reflexivity].
Qed.
Lemma c_check B x c ev ks S (Q : unit -> (nat -> nat) -> sim -> Prop) : K x S -> core x ks S + 2 <= B ->
  (forall S', bill ks S ks S' -> core x ks S' <= core x ks S + 2 + AM -> prs S' = prs S -> Q tt ks S') -> charge B x (check c ev) ks S Q.
Proof.
  intros H L HQ. unfold check. apply c_get. assert (Id : Q tt ks S) by (apply HQ; [apply bill_refl|lia|reflexivity]).
  destruct (trig S c) eqn:Et; [apply c_ret; exact Id|]. destruct (event_at ev S) as [e|]; [|apply c_ret; exact Id].
  assert (Su : charge B x (succeed c) ks S Q) by (apply c_succeed; auto; intros S' Bl C _ P; apply HQ; auto).
  destruct (evalue e) as [[v|t]|]; try exact Su.
  eapply c_bind with (Q1 := fun _ ks' S' => ks' = ks /\ core x ks S' <= core x ks S /\ prs S' = prs S /\ trig S' c = false).
  - pose proof (defuse_keeps ev S c) as Dk. unfold charge. destruct (defuse ev S) as [S1 [[]|f]] eqn:Ed; [|unfold defuse, set_event, upd_ in Ed; discriminate].
    assert (Ch := c_defuse B x ev ks S (fun _ ks' S' => ks' = ks /\ core x ks S' <= core x ks S /\ prs S' = prs S) H).
    unfold charge in Ch. rewrite Ed in Ch. destruct Ch as (ks' & Bl & -> & C & P); [intros; repeat split; auto|].
    exists ks. split; [exact Bl|]. repeat split; auto. cbn [fst] in Dk. congruence.
  - intros _ ks1 S1 B1 (-> & C1 & P1 & T1). pose proof (bill_K _ _ _ _ _ B1 H) as H1.
    eapply c_bind with (Q1 := fun _ ks' S' => ks' = ks /\ core x ks S' <= core x ks S + AM /\ prs S' = prs S).
    + apply (c_set_event B x c _ ks S1 _ 0); auto.
      * intros y. rewrite evcost_same with (e := y) by reflexivity. lia.
      * intros y Hy. right. unfold trig in T1. rewrite Hy in T1. unfold triggered in T1. destruct (evalue y); [discriminate|]. split; [reflexivity|]. intros g [=].
      * intros S' _ C _ P _. repeat split; [lia|congruence].
    + intros _ ks2 S2 B2 (-> & C2 & P2). apply c_schedule. intros S3 B3 C _ P3. apply HQ; [|lia|congruence]. eapply bill_trans; [exact B1|]. eapply bill_trans; eauto.
Qed.
Lemma c_watch B x c ev ks S (Q : unit -> (nat -> nat) -> sim -> Prop) : K x S -> core x ks S + 2 <= B ->
  (forall S', bill ks S ks S' -> core x ks S' <= core x ks S + (AM + 4) -> prs S' = prs S -> Q tt ks S') -> charge B x (watch c ev) ks S Q.
Proof.
  intros H L HQ. unfold watch. apply c_get. destruct (processed ev S).
  - apply c_check; auto. intros S' Bl C P. apply HQ; auto. lia.
  - apply c_add_cb; auto.
Qed.
Lemma c_any_of B x a b ks S (Q : nat -> (nat -> nat) -> sim -> Prop) : K x S -> core x ks S + (AM + 6) <= B ->
  (forall c S', bill ks S ks S' -> core x ks S' <= core x ks S + 2 * (AM + 4) -> prs S' = prs S -> role_at c RCond S' -> Q c ks S') -> charge B x (any_of a b) ks S Q.
Proof.
  intros H L HQ. unfold any_of, new_event.
  eapply c_bind with (Q1 := fun ev ks' S' => ks' = ks /\ core x ks S' <= core x ks S /\ role_at ev RCond S' /\ prs S' = prs S).
  { apply c_mk; [assumption|intros g; discriminate|]. intros S' _ C R _ P _. cbn [map list_sum fold_right cb_cost] in C. repeat split; auto. lia. }
  intros c ks1 S1 B1 (-> & C1 & R1 & P1). pose proof (bill_K _ _ _ _ _ B1 H) as H1.
  eapply c_bind with (Q1 := fun _ ks' S' => ks' = ks /\ core x ks S' <= core x ks S + (AM + 4) /\ role_at c RCond S' /\ prs S' = prs S).
  { apply c_watch; auto; [lia|]. intros S' Bl C P. repeat split; [lia| |congruence]. apply (b_roles _ _ _ _ Bl). exact R1. }
  intros _ ks2 S2 B2 (-> & C2 & R2 & P2). pose proof (bill_K _ _ _ _ _ B2 H1) as H2.
  eapply c_bind with (Q1 := fun _ ks' S' => ks' = ks /\ core x ks S' <= core x ks S + 2 * (AM + 4) /\ role_at c RCond S' /\ prs S' = prs S).
  { apply c_watch; auto; [lia|]. intros S' Bl C P. repeat split; [lia| |congruence]. apply (b_roles _ _ _ _ Bl). exact R2. }
  intros _ ks3 S3 B3 (-> & C3 & R3 & P3). apply c_ret. apply HQ; auto. eapply bill_trans; [exact B1|]. eapply bill_trans; eauto.
Qed.

(** *** Code *)

Lemma c_ss x ks S s' d : tight d (ss S) s' -> bill ks S ks (set_ss s' S) /\ core x ks (set_ss s' S) <= core x ks S + VV * d.
Proof.
  intros (A & P & C). split.
  - apply mk_bill; auto.
    + exists []. rewrite app_nil_r. auto.
    + intros i r L Hr. apply nth_error_None in L. unfold proc_at in Hr. cbn [prs set_ss] in Hr. congruence.
    + unfold pps. cbn [ss set_ss]. change (early_of (set_ss s' S)) with (early_of S). lia.
  - unfold core, base. cbn [heap evs todo ss prs set_ss]. change (early_of (set_ss s' S)) with (early_of S).
    rewrite (psum_ext (share x ks (set_ss s' S)) (share x ks S)) by (intros; reflexivity).
    assert (VV * (ocount (sprocs s') + ocount (early_of S)) <= VV * (ocount (sprocs (ss S)) + ocount (early_of S)) + VV * d); [|lia].
    rewrite <- Nat.mul_add_distr_l. apply Nat.mul_le_mono_l. lia.
Qed.
Lemma c_same B x f ks S (Q : unit -> (nat -> nat) -> sim -> Prop) : prs (f S) = prs S -> evs (f S) = evs S -> heap (f S) = heap S -> now (f S) = now S -> todo (f S) = todo S ->
  dead (f S) = dead S -> eact (f S) = eact S -> pact (f S) = pact S -> acts (f S) = acts S -> hasenv (f S) = hasenv S ->
  settings (ss (f S)) = settings (ss S) -> sprocs (ss (f S)) = sprocs (ss S) -> early (f S) = early S ->
  (bill ks S ks (f S) -> core x ks (f S) = core x ks S -> Q tt ks (f S)) -> charge B x (upd_ f) ks S Q.
Proof.
  intros E1 E2 E3 E4 E5 E6 E7 E8 E9 E10 E11 E12 E13 H. apply c_upd; auto.
  - unfold pps, early_of. rewrite E12, E13. lia.
  - intros Bl C. apply H; [exact Bl|]. revert C. unfold early_of. rewrite E12, E13. lia.
Qed.
Lemma c_note B x e ks S (Q : unit -> (nat -> nat) -> sim -> Prop) :
  (forall S', bill ks S ks S' -> core x ks S' = core x ks S -> Q tt ks S') -> charge B x (note e) ks S Q.
Proof. intros H. unfold note. apply c_same; auto. Qed.
Lemma c_activate B x e ks S (Q : unit -> (nat -> nat) -> sim -> Prop) : K x S -> core x ks S + 2 <= B ->
  (forall S', bill ks S ks S' -> core x ks S' <= core x ks S + (AM + 2) -> (eproc e = PROCEDURAL -> core x ks S' <= core x ks S) -> Q tt ks S') -> charge B x (activate e) ks S Q.
Proof.
  intros H L HQ. unfold activate. apply c_get. assert (Id : Q tt ks S) by (apply HQ; [apply bill_refl|lia|lia]).
  assert (G : charge B x (if String.eqb (eproc e) PROCEDURAL then ret tt else if trig S (pact S) then ret tt else succeed (pact S)) ks S Q).
  { destruct (String.eqb_spec (eproc e) PROCEDURAL) as [E|Ne]; [apply c_ret; exact Id|]. destruct (trig S (pact S)); [apply c_ret; exact Id|].
    apply c_succeed; auto. intros S' Bl C _ _. apply HQ; auto; [lia|]. intros E. contradiction. }
  destruct (ewhat e); try exact G. apply c_ret. exact Id.
Qed.
Lemma eact_untargeted x S : K x S -> hasenv S = true -> untargeted x (eact S) S.
Proof. intros H He i r Hr Hx Ha. apply (k_tgt _ _ H i r Hr Hx Ha). exact He. Qed.
Lemma c_interact B x ks S (Q : unit -> (nat -> nat) -> sim -> Prop) : K x S -> core x ks S + 2 <= B ->
  (forall S', bill ks S ks S' -> core x ks S' <= core x ks S + 2 -> Q tt ks S') -> charge B x interact ks S Q.
Proof.
  intros H L HQ. unfold interact. apply c_get. destruct (hasenv S) eqn:He; [|apply c_ret; apply HQ; [apply bill_refl|lia]].
  eapply c_bind with (Q1 := fun _ ks' S' => ks' = ks /\ core x ks S' <= core x ks S + 2).
  - destruct (existsb _ _); [|apply c_ret; split; [reflexivity|lia]].
    apply c_succeed; auto. intros S' _ _ C _. split; [reflexivity|]. apply C, eact_untargeted; assumption.
  - intros _ ks1 S1 B1 [-> C1]. apply c_same; auto. intros Bl C. apply HQ; [eapply bill_trans; eauto|lia].
Qed.

(** How a process goes on. *)
Definition fin (B p : nat) (nx : nxt) (ks : nat -> nat) (S : sim) : Prop :=
  match nx with
  | NWait c ev => exists w, okw c w /\ (actwt c <> 0 -> role_at ev RAct S /\ (hasenv S = true -> ev <> eact S)) /\
                  core (Some p) ks S + w + 3 + (if trig S ev then actwt c else 0) <= B
  | NDone v => (forall g, v = XCont g -> costs CC 0 g) /\ core (Some p) ks S + 2 <= B
  end.

Lemma c_after {A} B x (m : M A) ks S S1 (Q : A -> (nat -> nat) -> sim -> Prop) : bill ks S ks S1 -> charge B x m ks S1 Q ->
  let '(S', r) := m S1 in exists ks', bill ks S ks' S' /\ match r with inl a => Q a ks' S' | inr _ => core x ks' S' + 2 <= B end.
Proof. intros B1. unfold charge. destruct (m S1) as [S' r]. intros (ks' & B2 & H). exists ks'. split; [eapply bill_trans; eauto|exact H]. Qed.
(** The generator of a process goes on. *)
Definition fin_local (isproc : bool) (n : string) (B p : nat) (nx : nxt) (ks : nat -> nat) (S : sim) : Prop :=
  match nx with
  | NWait c ev => exists e g k d, c = KLocal isproc n e g /\ costs k d g /\ core (Some p) ks S + (YY * k + VV * d + ZZ) + 3 <= B
  | NDone v => (forall g, v = XCont g -> costs CC 0 g) /\ core (Some p) ks S + 2 <= B
  end.
Lemma c_local_ B p isproc n g k d ks S : K (Some p) S -> costs k d g -> core (Some p) ks S + YY * k + VV * d + 4 <= B ->
  charge B (Some p) (local_next isproc n g) ks S (fin_local isproc n B p).
Proof.
  intros H Hg L. unfold local_next, charge. destruct (resume g (ss S)) as [[s' ns] o] eqn:Er.
  destruct (costs_resume g k d _ _ _ _ Hg Er) as (d0 & d1 & -> & T & Ho). destruct (c_ss (Some p) ks S s' d0 T) as [Bl C].
  rewrite Nat.mul_add_distr_l in L. destruct o as [|e|e g'|g'].
  3: { destruct Ho as (k' & -> & Hk). assert (Yy : YY = AM + 12) by reflexivity. assert (Zz : ZZ = AM + 8) by reflexivity. rewrite Nat.mul_succ_r in L.
    match goal with |- context[?m (set_ss s' S)] => change (let '(S', r) := m (set_ss s' S) in exists ks', bill ks S ks' S' /\ match r with inl a => fin_local isproc n B p a ks' S' | inr _ => core (Some p) ks' S' + 2 <= B end) end.
    apply (c_after B (Some p) _ ks S (set_ss s' S)); [exact Bl|]. pose proof (bill_K _ _ _ _ _ Bl H) as H1.
    eapply c_bind; [apply c_timeout; [exact H1|lia|]|].
    + intros ev S' B2 C2 _ _. instantiate (1 := fun ev ks' S' => ks' = ks /\ core (Some p) ks S' <= core (Some p) ks (set_ss s' S) + 2). split; [reflexivity|exact C2].
    + intros ev ks2 S2 B2 [-> C2]. apply c_ret. exists e, g', k', d1. split; [reflexivity|]. split; [exact Hk|]. lia. }
  - exists ks. split; [exact Bl|]. split; [destruct isproc; intros g0 [=]|lia].
  - exists ks. split; [exact Bl|lia].
  - exists ks. split; [exact Bl|]. split; [intros g0 [= <-]; exact Ho|lia].
Qed.
Lemma c_local B p n g k d ks S : K (Some p) S -> costs k d g -> core (Some p) ks S + YY * k + VV * d + 4 <= B ->
  charge B (Some p) (local_next false n g) ks S (fin B p).
Proof.
  intros H Hg L. eapply c_conseq; [apply (c_local_ B p false n g k d); auto|]. intros [c ev|v] ks' S' _ F; [|exact F].
  destruct F as (e & g' & k' & d' & -> & Hg' & F). eexists. split; [exists k', d'; split; [exact Hg'|apply Nat.le_refl]|]. split; [cbn [actwt]; contradiction|]. cbn [actwt]. destruct (trig S' ev); lia.
Qed.

Lemma c_act_of B x n ks S (Q : nat -> (nat -> nat) -> sim -> Prop) : core x ks S + 2 <= B ->
  (forall ev, dget (acts S) n = Some ev -> Q ev ks S) -> charge B x (act_of n) ks S Q.
Proof. intros L H. unfold act_of. apply c_get. destruct (dget (acts S) n) as [ev|] eqn:E; [apply c_ret; auto|apply c_throw; exact L]. Qed.
Lemma c_wait_for B x c p ks S (Q : nxt -> (nat -> nat) -> sim -> Prop) : Q (NWait c (own_event p S)) ks S -> charge B x (wait_for c p) ks S Q.
Proof. intros H. unfold wait_for. apply c_get. apply c_ret. exact H. Qed.

Lemma take_proc_counts n l q l' : take_proc n l = Some (q, l') -> pcount l' + (if is_pproc q then 1 else 0) = pcount l /\ ocount l' + (if is_pproc q then 0 else 1) = ocount l.
Proof.
  revert q l'. induction l as [|x l IH]; intros q l' H; cbn [take_proc] in H; [discriminate|].
  destruct (String.eqb _ n).
  - injection H as <- <-. unfold pcount, ocount. cbn [filter]. destruct (is_pproc x); cbn [negb List.length]; lia.
  - destruct (take_proc n l) as [[y l2]|]; [|discriminate]. injection H as <- <-. destruct (IH y l2 eq_refl) as [A B]. revert A B. unfold pcount, ocount. cbn [filter].
    destruct (is_pproc x); cbn [negb List.length]; lia.
Qed.
Lemma put_started_counts l S : pcount (sprocs (ss (put_started l S))) + pcount (early_of (put_started l S)) + pcount (get_started S) = pps S + pcount l /\
  ocount (sprocs (ss (put_started l S))) + ocount (early_of (put_started l S)) + ocount (get_started S) = ocount (sprocs (ss S)) + ocount (early_of S) + ocount l.
Proof.
  unfold put_started, get_started, pps, early_of. destruct (early S) as [x|] eqn:E; cbn [ss early set_early set_ss sprocs set_procs].
  - lia.
  - rewrite E. cbn. lia.
Qed.
Lemma c_put B x l ks S (Q : unit -> (nat -> nat) -> sim -> Prop) : pcount l <= pcount (get_started S) ->
  (forall S', bill ks S ks S' -> core x ks S' + VV * ocount (get_started S) = core x ks S + VV * ocount l -> acts S' = acts S -> Q tt ks S') -> charge B x (upd_ (put_started l)) ks S Q.
Proof.
  intros L H. destruct (put_started_counts l S) as [A C].
  assert (E : forall (X : Type) (f : sim -> X), (forall e, f (set_early e S) = f S) -> (forall s, f (set_ss s S) = f S) -> f (put_started l S) = f S).
  { intros X f F1 F2. unfold put_started. destruct (early S); auto. }
  apply c_upd; try (apply E; reflexivity).
  - unfold put_started. destruct (early S); reflexivity.
  - unfold pps in *. lia.
  - intros Bl D. apply H; [exact Bl| |apply E; reflexivity]. assert (F := f_equal (Nat.mul VV) C). rewrite !Nat.mul_add_distr_l in F. rewrite !Nat.mul_add_distr_l in D. lia.
Qed.

Lemma c_extra B O p n ks S z : K (Some p) S -> (forall ev, dget (acts S) n = Some ev -> trig S ev = true -> z = 3) -> core (Some p) ks S + 3 + z <= B ->
  charge B (Some p) (extra_loop O n) ks S (fin B p).
Proof.
  intros H Hz L. unfold extra_loop. apply c_get. destruct (take_proc n (get_started S)) as [[q l]|] eqn:Et.
  - destruct (take_proc_counts _ _ _ _ Et) as [P1 P2].
    assert (G : is_pproc q = false -> charge B (Some p) (upd_ (put_started l) ;! (let! ev := act_of n in let! S := get in (if trig S ev then ret tt else succeed ev) ;!
        let! pro := spawn (KLocal0 false n (proc_gen O q)) in wait_for (KExtraPro n pro) pro)) ks S (fin B p)).
    { intros Eq. rewrite Eq in P1, P2. assert (Vv : VV = AM + 2 * LW + 40) by reflexivity.
      eapply c_bind with (Q1 := fun _ ks' S' => ks' = ks /\ core (Some p) ks S' + VV = core (Some p) ks S).
      { apply c_put; [lia|]. intros S' Bl C _. split; [reflexivity|]. rewrite <- P2 in C. rewrite Nat.mul_add_distr_l, Nat.mul_1_r in C. lia. }
      intros _ ks1 S1 B1 [-> C1]. pose proof (bill_K _ _ _ _ _ B1 H) as H1.
      eapply c_bind with (Q1 := fun _ ks' S' => ks' = ks /\ core (Some p) ks S' + VV = core (Some p) ks S).
      { apply c_act_of; [lia|]. auto. }
      intros ev ks2 S2 B2 [-> C2]. pose proof (bill_K _ _ _ _ _ B2 H1) as H2. apply c_get.
      eapply c_bind with (Q1 := fun _ ks' S' => ks' = ks /\ core (Some p) ks S' + VV <= core (Some p) ks S + 2 + AM).
      { destruct (trig S2 ev); [apply c_ret; split; [reflexivity|lia]|]. apply c_succeed; [exact H2|lia|]. intros S' _ C _ _. split; [reflexivity|lia]. }
      intros _ ks3 S3 B3 [-> C3]. pose proof (bill_K _ _ _ _ _ B3 H2) as H3.
      eapply c_bind with (Q1 := fun _ ks' S' => core (Some p) ks' S' + VV <= core (Some p) ks S + 7 + AM + LW).
      { apply (c_spawn B (Some p) _ LW); [exact H3| |intros _ X; exact X|reflexivity|reflexivity|].
        - exists CC, 0. split; [apply costs_proc|]. unfold LW. lia.
        - intros ks' S' _ C _. lia. }
      intros pro ks4 S4 B4 C4. apply c_wait_for. exists (LW + 20). split; [cbn [okw]; lia|]. split; [cbn [actwt]; contradiction|]. cbn [actwt]. destruct (trig S4 _); lia. }
    destruct q; [apply c_throw; lia|apply G; reflexivity|apply G; reflexivity].
  - eapply c_bind with (Q1 := fun _ ks' S' => ks' = ks /\ core (Some p) ks S' = core (Some p) ks S /\ acts S' = acts S /\ evs S' = evs S).
    { apply c_same; auto. }
    intros _ ks1 S1 B1 (-> & C1 & Ea & Ev). pose proof (bill_K _ _ _ _ _ B1 H) as H1.
    eapply c_bind with (Q1 := fun ev ks' S' => ks' = ks /\ S' = S1 /\ dget (acts S1) n = Some ev).
    { apply c_act_of; [lia|]. auto. }
    intros ev ks2 S2 B2 (-> & -> & Ed). apply c_ret. exists 0. split; [exact I|]. split.
    + intros _. split; [apply (k_acts _ _ H1 n ev Ed)|]. intros He. destruct (k_eact _ _ H1 He) as (_ & _ & D). apply (D n ev Ed).
    + cbn [actwt]. rewrite Ea in Ed. specialize (Hz ev Ed). assert (T : trig S1 ev = trig S ev) by (unfold trig, event_at; rewrite Ev; reflexivity). rewrite T. destruct (trig S ev); [rewrite Hz in L by reflexivity|]; lia.
Qed.

(** *** New events for activation *)

Definition with_new (S : sim) : sim := set_evs (evs S ++ [MkEvt RAct None false (Some [])]) S.
Lemma new_K y S : K y S -> K y (with_new S) /\ role_at (List.length (evs S)) RAct (with_new S) /\ trig (with_new S) (List.length (evs S)) = false.
Proof.
  intros H. assert (R : forall ev r, role_at ev r S -> role_at ev r (with_new S)).
  { intros ev r (e & He & R). exists e. split; [apply nth_snoc_old; exact He|exact R]. }
  split; [|split].
  - apply (keep_K y S (with_new S) []); auto. cbn [prs set_evs with_new]. rewrite app_nil_r. reflexivity.
  - eexists. split; [apply nth_snoc_new|reflexivity].
  - unfold trig, with_new, event_at. cbn [evs set_evs]. rewrite nth_snoc_new. reflexivity.
Qed.
Lemma c_new_ptr {A} B x (f : nat -> sim -> sim) (m : M A) ks S (Q : A -> (nat -> nat) -> sim -> Prop) : K x S ->
  let ev := List.length (evs S) in let S1 := with_new S in let S2 := f ev S1 in
  prs S2 = prs S1 -> evs S2 = evs S1 -> heap S2 = heap S1 -> now S2 = now S1 -> todo S2 = todo S1 ->
  dead S2 = dead S1 -> hasenv S2 = hasenv S1 -> ss S2 = ss S1 -> early S2 = early S1 -> (forall y, K y S -> K y S1 -> K y S2) ->
  (bill ks S ks S2 -> core x ks S2 <= core x ks S -> K x S2 -> role_at ev RAct S2 -> trig S2 ev = false -> charge B x m ks S2 Q) ->
  charge B x (let! ev := new_event RAct in upd_ (f ev) ;! m) ks S Q.
Proof.
  intros H ev S1 S2 E1 E2 E3 E4 E5 E6 E7 E8 E9 Hk HQ.
  assert (C0 : charge B x (new_event RAct) ks S (fun _ ks' S' => ks' = ks /\ core x ks S' <= core x ks S)).
  { unfold new_event. apply c_mk; [exact H|intros g; discriminate|]. intros S' _ C _ _ _ _. cbn [map list_sum fold_right] in C. split; [reflexivity|lia]. }
  unfold charge, new_event, mk_event in C0. destruct C0 as (ks1 & B1 & -> & C1). change (set_evs _ S) with S1 in B1, C1.
  assert (Ev : forall i, event_at i S2 = event_at i S1) by (intros i; unfold event_at; rewrite E2; reflexivity).
  assert (Bl : bill ks S ks S2).
  { constructor; auto.
    - rewrite E1. apply B1.
    - intros i r L Hr. unfold proc_at in Hr. rewrite E1 in Hr. apply (b_new _ _ _ _ B1 i r L Hr).
    - intros i r Hr. destruct (b_roles _ _ _ _ B1 i r Hr) as (e & He & R). exists e. rewrite Ev. auto.
    - intros y Hy. apply Hk; [exact Hy|]. apply (b_K _ _ _ _ B1). exact Hy.
    - rewrite E8. apply B1.
    - unfold pps, early_of. rewrite E8, E9. apply (b_pps _ _ _ _ B1).
    - intros i o Hi. apply (b_keep _ _ _ _ B1) in Hi. unfold value_of in *. rewrite Ev. exact Hi.
    - intros i g. unfold value_of at 1. rewrite Ev. apply (b_cont _ _ _ _ B1). }
  assert (C2 : core x ks S2 = core x ks S1).
  { unfold core, base, early_of. rewrite E1, E2, E3, E5, E8, E9.
    rewrite (psum_ext (share x ks S2) (share x ks S1)); [lia|]. intros j r _. unfold share, trig, event_at. rewrite E2. reflexivity. }
  destruct (new_K x S H) as (H1 & R1 & T1).
  unfold charge, bind, new_event, mk_event, upd_. change (f _ _) with S2. apply (c_after B x m ks S S2 Q Bl). apply HQ; auto; [lia| |].
  - destruct R1 as (e & He & R). exists e. rewrite Ev. auto.
  - unfold trig. rewrite Ev. exact T1.
Qed.
Lemma new_apart y S ev r : role_at ev r S -> y = List.length (evs S) -> y <> ev.
Proof. intros R -> E. pose proof (role_lt _ _ _ R). lia. Qed.
Lemma c_new_pact {A} B x (m : M A) ks S (Q : A -> (nat -> nat) -> sim -> Prop) : K x S ->
  (forall S', bill ks S ks S' -> core x ks S' <= core x ks S -> trig S' (pact S') = false -> charge B x m ks S' Q) ->
  charge B x (let! ev := new_event RAct in upd_ (set_pact ev) ;! m) ks S Q.
Proof.
  intros H HQ. apply (c_new_ptr B x set_pact); auto. intros y Hy H1.
  destruct (new_K y S Hy) as (_ & R1 & _). constructor; try apply H1; auto. intros He. destruct (k_eact _ _ Hy He) as (R & _ & D). destruct (k_eact _ _ H1 He) as (R' & _ & D').
  split; [exact R'|]. split; [|exact D']. apply (new_apart _ S _ RAct); [exact R|reflexivity].
Qed.
Lemma c_new_act {A} B x n (m : M A) ks S (Q : A -> (nat -> nat) -> sim -> Prop) : K x S ->
  (forall S', bill ks S ks S' -> core x ks S' <= core x ks S -> (forall ev, dget (acts S') n = Some ev -> trig S' ev = false) -> charge B x m ks S' Q) ->
  charge B x (let! ev := new_event RAct in upd_ (fun S => set_acts (dset (acts S) n ev) S) ;! m) ks S Q.
Proof.
  intros H HQ. apply (c_new_ptr B x (fun ev S => set_acts (dset (acts S) n ev) S)); auto.
  - intros y Hy H1. destruct (new_K y S Hy) as (_ & R1 & _). constructor; try apply H1.
    + intros He. destruct (k_eact _ _ Hy He) as (R & _ & D). destruct (k_eact _ _ H1 He) as (R' & P' & D').
      split; [exact R'|]. split; [exact P'|]. cbn [acts set_acts eact with_new]. intros m0 ev0. rewrite dget_dset. destruct (String.eqb n m0); [intros [= <-]; apply (new_apart _ S _ RAct); [exact R|reflexivity]|apply D'].
    + cbn [acts set_acts]. intros m0 ev0. rewrite dget_dset. destruct (String.eqb n m0); [intros [= <-]; exact R1|apply (k_acts _ _ H1)].
  - intros Bl C _ _ T. apply HQ; auto. cbn [acts set_acts]. intros ev0. rewrite dget_dset_eq. intros [= <-]. exact T.
Qed.
Lemma c_new_eact {A} B x (m : M A) ks S (Q : A -> (nat -> nat) -> sim -> Prop) : K x S ->
  (forall S', bill ks S ks S' -> core x ks S' <= core x ks S -> charge B x m ks S' Q) ->
  charge B x (let! ev := new_event RAct in upd_ (set_eact ev) ;! m) ks S Q.
Proof.
  intros H HQ. apply (c_new_ptr B x set_eact); auto. intros y Hy H1.
  destruct (new_K y S Hy) as (_ & R1 & _). constructor; try apply H1.
  - intros i r Hr Hx Ha. destruct (k_tgt _ _ H1 i r Hr Hx Ha) as [R _]. split; [exact R|]. intros _. cbn [eact set_eact]. destruct (k_tgt _ _ Hy i r Hr Hx Ha) as [R0 _]. intros E. symmetry in E. revert E. apply (new_apart _ S _ RAct); [exact R0|reflexivity].
  - intros He. split; [exact R1|]. cbn [eact set_eact pact acts]. split.
    + intros E. symmetry in E. revert E. apply (new_apart _ S _ RAct); [apply (k_pact _ _ Hy)|reflexivity].
    + intros n ev Hn E. symmetry in E. revert E. apply (new_apart _ S _ RAct); [apply (k_acts _ _ Hy n ev Hn)|reflexivity].
Qed.

(** *** Starting processes *)

Lemma c_zero B p k ks S : K (Some p) S -> core (Some p) ks S + 27 + 5 * k + 5 <= B -> charge B (Some p) (zero k) ks S (fun nx ks' S' => fin B p nx ks' S' /\ exists ev, nx = NWait (KProcZero k) ev).
Proof.
  intros H L. unfold zero. eapply c_bind with (Q1 := fun _ ks' S' => ks' = ks /\ core (Some p) ks S' <= core (Some p) ks S + 2).
  - apply c_timeout; [exact H|lia|]. intros ev S' _ C _ _. auto.
  - intros ev ks' S' _ [-> C]. apply c_ret. split; [|eauto]. exists (27 + 5 * k). split; [cbn [okw]; lia|]. split; [cbn [actwt]; contradiction|]. cbn [actwt]. destruct (trig S' ev); lia.
Qed.
Lemma c_interrupt_extra B x a n ks S (Q : unit -> (nat -> nat) -> sim -> Prop) : K x S -> core x ks S + 2 <= B ->
  (forall S', bill ks S ks S' -> core x ks S' <= core x ks S + 8 -> Q tt ks S') -> charge B x (interrupt_extra a n) ks S Q.
Proof. intros H L HQ. unfold interrupt_extra. apply c_get. destruct (dget (extras S) n); [apply c_interrupt; auto|apply c_throw; exact L]. Qed.
Lemma c_launch B x a pr ks S (Q : unit -> (nat -> nat) -> sim -> Prop) : K x S -> core x ks S + 2 <= B ->
  (forall S', bill ks S ks S' -> core x ks S' <= core x ks S + (AM + 8) -> Q tt ks S') -> charge B x (launch a pr) ks S Q.
Proof.
  intros H L HQ.
  assert (G : forall id n can, charge B x (let! ev := act_of n in let! S := get in if trig S ev then
        match dget (inter S) n with
        | Some id' => if Nat.eqb id id' then ret tt else upd_ (fun S => set_inter (dset (inter S) n id) S) ;! interrupt_extra a n
        | None => ret tt end
      else (if can : bool then upd_ (fun S => set_inter (dset (inter S) n id) S) else ret tt) ;! succeed ev) ks S Q).
  { intros id n can. eapply c_bind with (Q1 := fun _ ks' S' => ks' = ks /\ S' = S); [apply c_act_of; auto|]. intros ev ks1 S1 _ [-> ->]. apply c_get.
    assert (Id : Q tt ks S) by (apply HQ; [apply bill_refl|lia]).
    destruct (trig S ev).
    - destruct (dget (inter S) n) as [id'|]; [|apply c_ret; exact Id]. destruct (Nat.eqb id id'); [apply c_ret; exact Id|].
      eapply c_bind with (Q1 := fun _ ks' S' => ks' = ks /\ core x ks S' = core x ks S); [apply c_same; auto|]. intros _ ks1 S1 B1 [-> C1].
      apply c_interrupt_extra; [apply (bill_K _ _ _ _ _ B1 H)|lia|]. intros S' Bl C. apply HQ; [eapply bill_trans; eauto|lia].
    - eapply c_bind with (Q1 := fun _ ks' S' => ks' = ks /\ core x ks S' = core x ks S); [destruct can; [apply c_same; auto|apply c_ret; auto]|]. intros _ ks1 S1 B1 [-> C1].
      apply c_succeed; [apply (bill_K _ _ _ _ _ B1 H)|lia|]. intros S' Bl C _ _. apply HQ; [eapply bill_trans; eauto|lia]. }
  unfold launch. destruct pr; [apply c_throw; exact L|apply G|apply (G _ _ false)].
Qed.
Lemma c_launch_all B x a l : forall ks S (Q : unit -> (nat -> nat) -> sim -> Prop), K x S -> core x ks S + (AM + 8) * List.length l + 2 <= B ->
  (forall S', bill ks S ks S' -> core x ks S' <= core x ks S + (AM + 8) * List.length l -> Q tt ks S') -> charge B x (launch_all a l) ks S Q.
Proof.
  induction l as [|pr l IH]; intros ks S Q H L HQ; cbn [launch_all List.length] in *.
  - apply c_ret. apply HQ; [apply bill_refl|lia].
  - rewrite Nat.mul_succ_r in *. eapply c_bind with (Q1 := fun _ ks' S' => ks' = ks /\ core x ks S' <= core x ks S + (AM + 8)); [apply c_launch; [exact H|lia|auto]|].
    intros _ ks1 S1 B1 [-> C1]. apply IH; [apply (bill_K _ _ _ _ _ B1 H)|lia|]. intros S' Bl C. apply HQ; [eapply bill_trans; eauto|lia].
Qed.

(** *** The environment *)

Lemma c_auto B x a nb ks S (Q : unit -> (nat -> nat) -> sim -> Prop) : K x S -> core x ks S + VV + 2 <= B ->
  (forall S', bill ks S ks S' -> core x ks S' <= core x ks S + (VV + AM + 8) -> Q tt ks S') -> charge B x (auto a nb) ks S Q.
Proof.
  intros H L HQ. destruct nb as [n i]. unfold auto. apply c_get. assert (Id : charge B x (ret tt) ks S Q) by (apply c_ret; apply HQ; [apply bill_refl|lia]).
  destruct (nth_error (bufs (sw (ss S))) i) as [b|]; [|exact Id]. cbv zeta.
  destruct (match bkind b with KLocation => Some false | KVisual => _ | _ => None end) as [enc|]; [|exact Id].
  destruct (xstim (sscreen (ss S))) as [stims|]; [|apply c_throw; lia].
  eapply c_bind with (Q1 := fun _ ks' S' => ks' = ks /\ core x ks S' = core x ks S); [apply c_same; auto|]. intros _ ks1 S1 B1 [-> C1]. pose proof (bill_K _ _ _ _ _ B1 H) as H1.
  eapply c_bind with (Q1 := fun _ ks' S' => ks' = ks /\ core x ks S' <= core x ks S + VV).
  { set (pr := PAuto _ _ _ _ _ _). 
    assert (P : charge B x (upd_ (put_started (get_started S1 ++ [pr]))) ks S1 (fun _ ks' S' => ks' = ks /\ core x ks S' <= core x ks S + VV)); [|exact P].
    apply c_put; [rewrite pcount_app; unfold pr; cbn; lia|]. intros S' Bl C _. split; [reflexivity|]. rewrite ocount_app in C. rewrite Nat.mul_add_distr_l in C. unfold pr in C. change (ocount [PAuto _ _ _ _ _ _]) with 1 in C. rewrite Nat.mul_1_r in C. lia. }
  intros _ ks2 S2 B2 [-> C2]. pose proof (bill_K _ _ _ _ _ B2 H1) as H2. pose proof (bill_trans _ _ _ _ _ _ B1 B2) as B12.
  eapply c_bind with (Q1 := fun _ ks' S' => ks' = ks /\ S' = S2); [apply c_act_of; [lia|auto]|]. intros ev ks3 S3 _ [-> ->]. apply c_get. destruct (trig S2 ev).
  - destruct (dget (inter S2) n) as [id'|]; [|apply c_throw; lia]. destruct (Nat.eqb _ id'); [apply c_ret; apply HQ; [exact B12|lia]|].
    eapply c_bind with (Q1 := fun _ ks' S' => ks' = ks /\ core x ks S' = core x ks S2); [apply c_same; auto|]. intros _ ks3 S3 B3 [-> C3].
    apply c_interrupt_extra; [apply (bill_K _ _ _ _ _ B3 H2)|lia|]. intros S' Bl C. apply HQ; [eapply bill_trans; [exact B12|]; eapply bill_trans; eauto|lia].
  - eapply c_bind with (Q1 := fun _ ks' S' => ks' = ks /\ core x ks S' = core x ks S2); [apply c_same; auto|]. intros _ ks3 S3 B3 [-> C3].
    apply c_succeed; [apply (bill_K _ _ _ _ _ B3 H2)|lia|]. intros S' Bl C _ _. apply HQ; [eapply bill_trans; [exact B12|]; eapply bill_trans; eauto|lia].
Qed.
Lemma c_auto_all B x a l : forall ks S (Q : unit -> (nat -> nat) -> sim -> Prop), K x S -> core x ks S + (VV + AM + 8) * List.length l + 2 <= B ->
  (forall S', bill ks S ks S' -> core x ks S' <= core x ks S + (VV + AM + 8) * List.length l -> Q tt ks S') -> charge B x (auto_all a l) ks S Q.
Proof.
  induction l as [|pr l IH]; intros ks S Q H L HQ; cbn [auto_all List.length] in *.
  - apply c_ret. apply HQ; [apply bill_refl|lia].
  - rewrite Nat.mul_succ_r in *. eapply c_bind with (Q1 := fun _ ks' S' => ks' = ks /\ core x ks S' <= core x ks S + (VV + AM + 8)); [apply c_auto; [exact H|lia|auto]|].
    intros _ ks1 S1 B1 [-> C1]. apply IH; [apply (bill_K _ _ _ _ _ B1 H)|lia|]. intros S' Bl C. apply HQ; [eapply bill_trans; eauto|lia].
Qed.
Lemma c_env_loop B p e g k d ks S : K (Some p) S -> costs k d g -> core (Some p) ks S + 3 * AM + 38 + EE * k + VV * d <= B -> charge B (Some p) (env_loop e g) ks S (fin B p).
Proof.
  intros H Hg L. unfold env_loop.
  eapply c_bind with (Q1 := fun _ ks' S' => core (Some p) ks' S' <= core (Some p) ks S + (AM + 17)).
  { apply (c_spawn B (Some p) _ (AM + 12)); [exact H|cbn [okw]; lia|intros _ X; exact X|reflexivity|reflexivity|]. intros ks' S' _ C _. lia. }
  intros pro ks1 S1 B1 C1. pose proof (bill_K _ _ _ _ _ B1 H) as H1. apply c_get.
  eapply c_bind with (Q1 := fun _ ks' S' => core (Some p) ks' S' <= core (Some p) ks S + (3 * AM + 25)).
  { apply c_any_of; [exact H1|lia|]. intros c S' _ C _ _. lia. }
  intros c ks2 S2 B2 C2. apply c_ret. exists (EE * k + VV * d + 10). split; [exists k, d; split; [exact Hg|lia]|]. split; [cbn [actwt]; contradiction|]. cbn [actwt]. destruct (trig S2 c); lia.
Qed.
Lemma c_env_next B p g k d (m : option (event * gen) -> M nxt) ks S : K (Some p) S -> costs k d g -> core (Some p) ks S + VV * d + 2 <= B ->
  (forall S', bill ks S ks S' -> core (Some p) ks S' <= core (Some p) ks S + VV * d -> charge B (Some p) (m None) ks S' (fin B p)) ->
  (forall S' e g' k' d0 d1, bill ks S ks S' -> k = Datatypes.S k' -> d = d0 + d1 -> costs k' d1 g' -> core (Some p) ks S' <= core (Some p) ks S + VV * d0 -> charge B (Some p) (m (Some (e, g'))) ks S' (fin B p)) ->
  charge B (Some p) (env_next g m) ks S (fin B p).
Proof.
  intros H Hg L Hn Hs. unfold env_next, charge. destruct (resume g (ss S)) as [[s' ns] o] eqn:Er.
  destruct (costs_resume g k d _ _ _ _ Hg Er) as (d0 & d1 & -> & T & Ho). destruct (c_ss (Some p) ks S s' d0 T) as [Bl C].
  rewrite Nat.mul_add_distr_l in *. destruct o as [|e|e g'|g'].
  - apply (c_after B (Some p) _ ks S (set_ss s' S)); [exact Bl|]. apply Hn; [exact Bl|lia].
  - exists ks. split; [exact Bl|lia].
  - destruct Ho as (k' & -> & Hk). apply (c_after B (Some p) _ ks S (set_ss s' S)); [exact Bl|]. eapply Hs; eauto.
  - exists ks. split; [exact Bl|lia].
Qed.

(** *** Processes *)

Lemma charge_ext {A} B x (m m' : M A) ks S (Q : A -> (nat -> nat) -> sim -> Prop) : m S = m' S -> charge B x m ks S Q -> charge B x m' ks S Q.
Proof. unfold charge. intros ->. auto. Qed.
Lemma c_start_proc B p (first : bool) ks S O t : CY = true -> K (Some p) S -> core (Some p) ks S + 24 + (if first then 63 else 3) <= B ->
  charge B (Some p) (let! pro := spawn (KLocal0 true PROCEDURAL (procedural O t)) in wait_for (KProcPro first) pro) ks S
    (fun nx ks' S' => fin B p nx ks' S' /\ (exists ev, nx = NWait (KProcPro first) ev) /\
       exists own init, prs S' = prs S ++ [MkPrc (Some (GLocal true PROCEDURAL)) own init (KLocal0 true PROCEDURAL (procedural O t))]).
Proof.
  intros Hcy H L. eapply c_bind with (Q1 := fun _ ks' S' => core (Some p) ks' S' <= core (Some p) ks S + 21 /\ exists own init, prs S' = prs S ++ [MkPrc (Some (GLocal true PROCEDURAL)) own init (KLocal0 true PROCEDURAL (procedural O t))]).
  - apply (c_spawn B (Some p) _ 16); [exact H|cbn [okw]; lia|rewrite Hcy; discriminate|reflexivity|reflexivity|]. intros ks' S' _ C X. split; [lia|exact X].
  - intros pro ks1 S1 B1 [C1 X1]. apply c_wait_for. split; [|split; [eauto|exact X1]]. exists (if first then 63 else 3). split; [cbn [okw]; lia|]. split; [cbn [actwt]; contradiction|]. cbn [actwt]. destruct (trig S1 _); lia.
Qed.
Lemma c_no_early B x ks S (Q : unit -> (nat -> nat) -> sim -> Prop) :
  (forall S', bill ks S ks S' -> core x ks S' <= core x ks S -> get_started S' = sprocs (ss S) -> ss S' = ss S -> early S' = None -> Q tt ks S') -> charge B x (upd_ (set_early None)) ks S Q.
Proof.
  intros H. apply c_upd; try reflexivity.
  - unfold pps, early_of. cbn [ss set_early early]. change (pcount []) with 0. lia.
  - intros Bl C. apply H; auto. revert C. cbn [ss set_early]. change (early_of (set_early None S)) with (@nil proc). rewrite !Nat.mul_add_distr_l. change (ocount []) with 0. lia.
Qed.
Lemma c_new_main B p (first : bool) ks S (Q : unit -> (nat -> nat) -> sim -> Prop) : K (Some p) S ->
  (forall S', bill ks S ks S' -> core (Some p) ks S' <= core (Some p) ks S -> ss S' = ss S -> early S' = early S -> (first = false -> trig S' (pact S') = false) -> Q tt ks S') ->
  charge B (Some p) (if first then ret tt else let! ev := new_event RAct in upd_ (set_pact ev)) ks S Q.
Proof.
  intros H HQ. destruct first; [apply c_ret; apply HQ; auto; [apply bill_refl|discriminate]|].
  assert (G : charge B (Some p) (let! ev := new_event RAct in upd_ (set_pact ev) ;! ret tt) ks S Q); [|exact G].
  assert (E : forall S', S' = set_pact (List.length (evs S)) (with_new S) -> ss S' = ss S /\ early S' = early S) by (intros ? ->; split; reflexivity).
  apply (c_new_ptr B (Some p) set_pact); auto.
  - intros y Hy H1. destruct (new_K y S Hy) as (_ & R1 & _). constructor; try apply H1; auto. intros He. destruct (k_eact _ _ Hy He) as (R & _ & D). destruct (k_eact _ _ H1 He) as (R' & _ & D').
    split; [exact R'|]. split; [|exact D']. apply (new_apart _ S _ RAct); [exact R|reflexivity].
  - intros Bl C _ _ T. apply c_ret. apply HQ; auto.
Qed.
(** The main process, when it finds the mark of the procedural process, and when it does not. *)
Lemma c_main_none B p O (first : bool) v ks S w : K (Some p) S -> okw (KProcPro first) w -> remove_procedural (sprocs (ss S)) = None -> core (Some p) ks S + w <= B ->
  charge B (Some p) (go_on O p (KProcPro first) (Good v)) ks S (fun nx ks' S' => fin B p nx ks' S' /\ exists ev, nx = NWait KProcAct ev).
Proof.
  intros H Hw Hr L. cbn [go_on okw] in *.
  eapply c_bind with (Q1 := fun _ ks' S' => ks' = ks /\ core (Some p) ks S' <= core (Some p) ks S /\ get_started S' = sprocs (ss S) /\ early S' = None).
  { apply c_no_early. intros S' _ C G _ E. auto. }
  intros _ ks1 S1 B1 (-> & C1 & G1 & E1). pose proof (bill_K _ _ _ _ _ B1 H) as H1.
  eapply c_bind with (Q1 := fun _ ks' S' => ks' = ks /\ core (Some p) ks S' <= core (Some p) ks S /\ get_started S' = sprocs (ss S) /\ (first = false -> trig S' (pact S') = false)).
  { apply c_new_main; [exact H1|]. intros S' Bl C E2 E3 T. split; [reflexivity|]. split; [lia|]. split; [|exact T]. unfold get_started in *. rewrite E3, E2, E1 in *. exact G1. }
  intros _ ks2 S2 B2 (-> & C2 & G2 & T2). pose proof (bill_K _ _ _ _ _ B2 H1) as H2. unfold proc_loop. apply c_get. rewrite G2, Hr. apply c_ret. split; [|eauto].
  exists 0. split; [exact I|]. split.
  - intros _. split; [apply (k_pact _ _ H2)|]. intros He. apply (k_eact _ _ H2 He).
  - cbn [actwt]. destruct first; [destruct (trig S2 (pact S2)); lia|rewrite T2 by reflexivity; lia].
Qed.
Lemma remove_procedural_counts l l' : remove_procedural l = Some l' -> pcount l' + 1 = pcount l /\ ocount l' = ocount l.
Proof.
  revert l'. induction l as [|x l IH]; intros l' H; cbn [remove_procedural] in H; [discriminate|].
  assert (G : is_pproc x = false -> match remove_procedural l with Some l'' => Some (x :: l'') | None => None end = Some l' -> pcount l' + 1 = pcount (x :: l) /\ ocount l' = ocount (x :: l)).
  { intros Ex H'. destruct (remove_procedural l) as [l2|]; [|discriminate]. injection H' as <-. destruct (IH l2 eq_refl) as [A D]. revert A D. unfold pcount, ocount. cbn [filter]. rewrite Ex. cbn [negb List.length]. lia. }
  destruct x; [|apply G; [reflexivity|exact H]|apply G; [reflexivity|exact H]]. injection H as <-. unfold pcount, ocount. cbn. lia.
Qed.
Lemma c_main_some p O (first : bool) v ks S l : K (Some p) S -> remove_procedural (sprocs (ss S)) = Some l -> let B := core (Some p) ks S + (AM + 8) * List.length l + 60 in
  charge B (Some p) (go_on O p (KProcPro first) (Good v)) ks S (fun nx ks' S' => (fin B p nx ks' S' /\ exists ev, nx = NWait (KProcZero 4) ev) /\ pps S' + 1 <= pps S).
Proof.
  intros H Hr B. destruct (remove_procedural_counts _ _ Hr) as [N1 N2]. cbn [go_on].
  eapply c_bind with (Q1 := fun _ ks' S' => ks' = ks /\ core (Some p) ks S' <= core (Some p) ks S /\ get_started S' = sprocs (ss S) /\ early S' = None /\ ss S' = ss S).
  { apply c_no_early. intros S' _ C G E' E. auto. }
  intros _ ks1 S1 B1 (-> & C1 & G1 & E1 & E1'). pose proof (bill_K _ _ _ _ _ B1 H) as H1.
  eapply c_bind with (Q1 := fun _ ks' S' => ks' = ks /\ core (Some p) ks S' <= core (Some p) ks S /\ ss S' = ss S /\ early S' = None).
  { apply c_new_main; [exact H1|]. intros S' Bl C E2 E3 T. repeat split; [lia| |]; congruence. }
  intros _ ks2 S2 B2 (-> & C2 & E2 & E3). pose proof (bill_K _ _ _ _ _ B2 H1) as H2. unfold proc_loop. apply c_get. unfold get_started. rewrite E3, E2, Hr.
  assert (P2 : pps S2 <= pps S) by (pose proof (b_pps _ _ _ _ B1); pose proof (b_pps _ _ _ _ B2); lia).
  eapply c_bind with (Q1 := fun _ ks' S' => ks' = ks /\ core (Some p) ks S' <= core (Some p) ks S /\ pps S' + 1 <= pps S).
  { unfold charge, upd_.
    assert (G := c_put B (Some p) l ks S2 (fun _ ks' S' => ks' = ks /\ core (Some p) ks S' + VV * ocount (get_started S2) = core (Some p) ks S2 + VV * ocount l)).
    unfold charge, upd_ in G. destruct G as (ks' & Bl & -> & G2).
    - unfold get_started. rewrite E3, E2. lia.
    - auto.
    - exists ks. split; [exact Bl|]. split; [reflexivity|]. unfold get_started in G2. rewrite E3, E2, N2 in G2. split; [lia|].
      destruct (put_started_counts l S2) as [A _]. unfold get_started in A. rewrite E3, E2 in A. unfold pps at 1. lia. }
  intros _ ks3 S3 B3 (-> & C3 & P3). pose proof (bill_K _ _ _ _ _ B3 H2) as H3.
  eapply c_bind with (Q1 := fun _ ks' S' => ks' = ks /\ core (Some p) ks S' <= core (Some p) ks S + (AM + 8) * List.length l).
  { apply c_launch_all; [exact H3|unfold B; lia|]. intros S' _ C. split; [reflexivity|lia]. }
  intros _ ks4 S4 B4 [-> C4]. pose proof (bill_K _ _ _ _ _ B4 H3) as H4.
  eapply c_conseq; [apply c_zero; [exact H4|unfold B; lia]|]. intros nx ks' S' Bl Hf. split; [exact Hf|]. pose proof (b_pps _ _ _ _ B4). pose proof (b_pps _ _ _ _ Bl). lia.
Qed.

(** All other processes but the procedural ones. *)
Definition plain_code (c : code) (o : outcome) : Prop :=
  match c, o with
  | KProc0, Good _ | KProcPro _, Good _ | KProcAct, Good _ | KProcZero _, Good _ | KLocal0 true _ _, _ | KLocal true _ _ _, _ | KEnd, _ => False
  | _, _ => True
  end.
Lemma c_bad B x c t ks S w (Q : nxt -> (nat -> nat) -> sim -> Prop) : okw c w -> c <> KEnd -> (forall b n g, c <> KLocal0 true b g /\ forall e, c <> KLocal true n e g) -> core x ks S + w + actwt c <= B -> charge B x (throw t) ks S Q.
Proof.
  intros Hw Ne Nc L. apply c_throw. assert (Yy : YY = AM + 12) by reflexivity. assert (Zz : ZZ = AM + 8) by reflexivity. assert (Lw : LW = YY * CC + ZZ) by reflexivity.
  destruct c as [|first| |k|n|n|n q|n q|[] n g|[] n e g|g|q g|e|e|]; cbn [okw actwt] in *; try lia.
  all: try (destruct first; lia).
  all: try (destruct Hw as (k' & d' & _ & Hw); lia).
  - destruct (Nc n n g) as [_ X]. elim (X e). reflexivity.
  - elim Ne. reflexivity.
Qed.
Lemma c_go B O p c o ks S w : K (Some p) S -> okw c w -> plain_code c o -> List.length (snames (ss S)) <= NN ->
  (forall n q g, c = KExtraPro n q -> o = Good (XCont g) -> costs CC 0 g) -> core (Some p) ks S + w + actwt c <= B ->
  charge B (Some p) (go_on O p c o) ks S (fin B p).
Proof.
  intros H Hw Hp Hn Hx L.
  assert (Yy : YY = AM + 12) by reflexivity. assert (Zz : ZZ = AM + 8) by reflexivity. assert (Lw : LW = YY * CC + ZZ) by reflexivity. assert (Ee : EE = NN * (VV + AM + 12) + 3 * AM + 60) by reflexivity.
  assert (Ba : forall t, charge B (Some p) (throw t) ks S (fin B p)).
  { intros t. apply (c_bad B (Some p) c t ks S w); auto; [intros ->; destruct o; exact Hp|]. intros b n g. split; [intros ->|intros e ->]; destruct o; exact Hp. }
  destruct c as [|first| |k|n|n|n q|n q|[] n g|[] n e g|g|q g|e|e|]; try (destruct o; contradiction Hp); cbn [okw actwt] in Hw, L.
  - destruct o as [v|t]; [contradiction Hp|apply Ba].
  - destruct o as [v|t]; [contradiction Hp|apply Ba].
  - destruct o as [v|t]; [contradiction Hp|apply Ba].
  - destruct o as [v|t]; [contradiction Hp|destruct k; apply Ba].
  - destruct o as [v|t]; [|apply Ba]. cbn [go_on]. apply (c_extra B O p n ks S 3); auto. lia.
  - destruct o as [v|t]; [|apply Ba]. cbn [go_on]. apply c_new_act; [exact H|]. intros S' Bl C T. apply (c_extra B O p n ks S' 0); [apply (bill_K _ _ _ _ _ Bl H)| |lia]. intros ev He Ht. rewrite T in Ht by exact He. discriminate.
  - assert (Ex : forall S', bill ks S ks S' -> core (Some p) ks S' <= core (Some p) ks S + 8 -> charge B (Some p) (extra_loop O n) ks S' (fin B p)).
    { intros S' Bl C. apply (c_extra B O p n ks S' 3); [apply (bill_K _ _ _ _ _ Bl H)|auto|lia]. }
    assert (Ex0 := Ex S (bill_refl ks S) ltac:(lia)).
    destruct o as [[| |g]|[e| |]]; cbn [go_on]; try exact Ex0; try apply Ba.
    + eapply c_bind with (Q1 := fun _ ks' S' => core (Some p) ks' S' <= core (Some p) ks S + 5 + LW).
      * apply (c_spawn B (Some p) _ LW); [exact H| |intros _ X; exact X|reflexivity|reflexivity|intros ks' S' _ C _; lia]. exists CC, 0. split; [apply (Hx n q g); reflexivity|lia].
      * intros pro ks1 S1 B1 C1. apply c_wait_for. exists 6. split; [cbn [okw]; lia|]. split; [cbn [actwt]; contradiction|]. cbn [actwt]. destruct (trig S1 _); lia.
    + apply c_get. eapply c_bind with (Q1 := fun _ ks' S' => ks' = ks /\ core (Some p) ks S' <= core (Some p) ks S + 8).
      * destruct (ended q S); [apply c_ret; split; [reflexivity|lia]|]. apply c_interrupt; [exact H|lia|auto].
      * intros _ ks1 S1 B1 [-> C1]. apply Ex; assumption.
  - assert (Ex0 : charge B (Some p) (extra_loop O n) ks S (fin B p)) by (apply (c_extra B O p n ks S 3); auto; lia).
    destruct o as [v|[e| |]]; cbn [go_on]; try exact Ex0; apply Ba.
  - destruct Hw as (k & d & Hg & Hw). destruct o as [v|t]; [|apply Ba]. cbn [go_on]. apply (c_local B p n g k d); auto. lia.
  - destruct Hw as (k & d & Hg & Hw). destruct o as [v|[t| |]]; [|apply Ba|apply Ba|].
    + cbn [go_on]. eapply c_bind with (Q1 := fun _ ks' S' => ks' = ks /\ core (Some p) ks S' = core (Some p) ks S); [apply c_note; auto|].
      intros _ ks1 S1 B1 [-> C1]. pose proof (bill_K _ _ _ _ _ B1 H) as H1.
      eapply c_bind with (Q1 := fun _ ks' S' => ks' = ks /\ core (Some p) ks S' <= core (Some p) ks S + (AM + 2)); [apply c_activate; [exact H1|lia|]; intros S' _ C _; split; [reflexivity|lia]|].
      intros _ ks2 S2 B2 [-> C2]. pose proof (bill_K _ _ _ _ _ B2 H1) as H2.
      eapply c_bind with (Q1 := fun _ ks' S' => ks' = ks /\ core (Some p) ks S' <= core (Some p) ks S + (AM + 4)); [apply c_interact; [exact H2|lia|]; intros S' _ C; split; [reflexivity|lia]|].
      intros _ ks3 S3 B3 [-> C3]. pose proof (bill_K _ _ _ _ _ B3 H2) as H3. apply (c_local B p n g k d); [exact H3|exact Hg|lia].
    + cbn [go_on]. apply c_ret. split; [intros g0 [=]|lia].
  - destruct Hw as (k & d & Hg & Hw). destruct o as [v|t]; [|apply Ba]. cbn [go_on].
    apply (c_env_next B p g k d); [exact H|exact Hg|lia| |].
    + intros S' Bl C. apply c_throw. lia.
    + intros S' e g' k' d0 d1 Bl -> -> Hg' C. apply (c_env_loop B p e g' k' d1); [apply (bill_K _ _ _ _ _ Bl H)|exact Hg'|]. rewrite Nat.mul_succ_r, Nat.mul_add_distr_l in Hw. lia.
  - destruct Hw as (k & d & Hg & Hw). destruct o as [v|t]; [|apply Ba]. cbn [go_on]. apply c_get.
    eapply c_bind with (Q1 := fun _ ks' S' => ks' = ks /\ core (Some p) ks S' <= core (Some p) ks S + 8).
    + destruct (trig S (eact S)); [|apply c_ret; split; [reflexivity|lia]].
      apply c_new_eact; [exact H|]. intros S' Bl C. apply c_interrupt; [apply (bill_K _ _ _ _ _ Bl H)|lia|]. intros S2 _ C2 _. split; [reflexivity|lia].
    + intros _ ks1 S1 B1 [-> C1]. pose proof (bill_K _ _ _ _ _ B1 H) as H1.
      apply (c_env_next B p g k d); [exact H1|exact Hg|lia| |].
      * intros S' Bl C. apply c_ret. split; [intros g0 [=]|lia].
      * intros S' e g' k' d0 d1 Bl -> -> Hg' C. pose proof (bill_K _ _ _ _ _ Bl H1) as H2. apply c_get. rewrite Nat.mul_succ_r, Nat.mul_add_distr_l in Hw.
        assert (En : List.length (snames (ss S')) <= NN).
        { assert (Es : settings (ss S') = settings (ss S)) by (rewrite (b_settings _ _ _ _ Bl), (b_settings _ _ _ _ B1); reflexivity). unfold settings in Es. injection Es as _ ->. exact Hn. }
        assert (Em : (VV + AM + 8) * List.length (snames (ss S')) <= NN * (VV + AM + 12)) by (rewrite Nat.mul_comm; apply Nat.mul_le_mono; lia).
        eapply c_bind with (Q1 := fun _ ks' S2 => ks' = ks /\ core (Some p) ks S2 <= core (Some p) ks S' + NN * (VV + AM + 12)); [apply c_auto_all; [exact H2|lia|]; intros S2 _ C2; split; [reflexivity|lia]|].
        intros _ ks2 S2 B2 [-> C2]. apply (c_env_loop B p e g' k' d1); [apply (bill_K _ _ _ _ _ B2 H2)|exact Hg'|lia].
  - destruct o as [v|t]; [|apply Ba]. cbn [go_on]. apply c_get. destruct (Z.ltb _ 0).
    + eapply c_bind with (Q1 := fun _ ks' S' => ks' = ks /\ core (Some p) ks S' <= core (Some p) ks S + (AM + 2)); [apply c_activate; [exact H|lia|]; intros S' _ C _; split; [reflexivity|lia]|].
      intros _ ks1 S1 _ [-> C1]. apply c_throw. lia.
    + eapply c_bind with (Q1 := fun _ ks' S' => ks' = ks /\ core (Some p) ks S' <= core (Some p) ks S + 2); [apply c_timeout; [exact H|lia|]; intros ev S' _ C _ _; split; [reflexivity|lia]|].
      intros ev ks1 S1 _ [-> C1]. apply c_ret. exists (AM + 6). split; [cbn [okw]; lia|]. split; [cbn [actwt]; contradiction|]. cbn [actwt]. destruct (trig S1 ev); lia.
  - assert (Ac : forall (m : M nxt), (forall S', bill ks S ks S' -> core (Some p) ks S' <= core (Some p) ks S + (AM + 2) -> charge B (Some p) m ks S' (fin B p)) -> charge B (Some p) (activate e ;! m) ks S (fin B p)).
    { intros m Hm. eapply c_bind with (Q1 := fun _ ks' S' => ks' = ks /\ core (Some p) ks S' <= core (Some p) ks S + (AM + 2)); [apply c_activate; [exact H|lia|]; intros S' _ C _; split; [reflexivity|lia]|].
      intros _ ks1 S1 Bl [-> C1]. apply Hm; assumption. }
    destruct o as [v|[t| |]]; cbn [go_on].
    + eapply c_bind with (Q1 := fun _ ks' S' => ks' = ks /\ core (Some p) ks S' = core (Some p) ks S); [apply c_note; auto|].
      intros _ ks1 S1 B1 [-> C1]. pose proof (bill_K _ _ _ _ _ B1 H) as H1.
      eapply c_bind with (Q1 := fun _ ks' S' => ks' = ks /\ core (Some p) ks S' <= core (Some p) ks S + (AM + 2)); [apply c_activate; [exact H1|lia|]; intros S' _ C _; split; [reflexivity|lia]|].
      intros _ ks2 S2 B2 [-> C2]. apply c_ret. split; [intros g0 [=]|lia].
    + apply Ac. intros S' Bl C. apply c_throw. lia.
    + apply Ac. intros S' Bl C. apply c_throw. lia.
    + apply Ac. intros S' Bl C. apply c_ret. split; [intros g0 [=]|lia].
Qed.

(** The main process. *)
Lemma c_main_act B p O v ks S : K (Some p) S -> core (Some p) ks S + 60 <= B ->
  charge B (Some p) (go_on O p KProcAct (Good v)) ks S (fun nx ks' S' => fin B p nx ks' S' /\ exists ev, nx = NWait (KProcZero 4) ev).
Proof. intros H L. cbn [go_on]. apply c_zero; [exact H|lia]. Qed.
Lemma c_main_zero B p O k v ks S w : K (Some p) S -> okw (KProcZero (Datatypes.S k)) w -> core (Some p) ks S + w <= B ->
  charge B (Some p) (go_on O p (KProcZero (Datatypes.S k)) (Good v)) ks S (fun nx ks' S' => fin B p nx ks' S' /\ exists ev, nx = NWait (KProcZero k) ev).
Proof. intros H Hw L. cbn [go_on okw] in *. apply c_zero; [exact H|lia]. Qed.
Lemma c_main_start B p O c v ks S w : CY = true -> K (Some p) S -> c = KProc0 \/ c = KProcZero 0 -> okw c w -> core (Some p) ks S + w <= B ->
  charge B (Some p) (go_on O p c (Good v)) ks S (fun nx ks' S' => fin B p nx ks' S' /\ (exists f ev, nx = NWait (KProcPro f) ev) /\
       exists own init t, prs S' = prs S ++ [MkPrc (Some (GLocal true PROCEDURAL)) own init (KLocal0 true PROCEDURAL (procedural O (seconds_of t)))]).
Proof.
  intros Hcy H Hc Hw L.
  assert (G : forall first : bool, core (Some p) ks S + 24 + (if first then 63 else 3) <= B -> charge B (Some p)
     (let! S := get in let! pro := spawn (KLocal0 true PROCEDURAL (procedural O (seconds_of (now S)))) in wait_for (KProcPro first) pro) ks S
     (fun nx ks' S' => fin B p nx ks' S' /\ (exists f ev, nx = NWait (KProcPro f) ev) /\
       exists own init t, prs S' = prs S ++ [MkPrc (Some (GLocal true PROCEDURAL)) own init (KLocal0 true PROCEDURAL (procedural O (seconds_of t)))])).
  { intros first Lf. apply c_get. eapply c_conseq; [apply c_start_proc; auto|]. intros nx ks' S' _ (F & (ev & ->) & own & init & E). split; [exact F|]. split; [eauto|]. exists own, init, (now S). exact E. }
  destruct Hc as [-> | ->]; cbn [go_on okw] in *; [apply (G true)|apply (G false)]; lia.
Qed.
End Charge.
End Bill.
