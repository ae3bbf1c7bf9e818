(** Every run of a simulation comes to its end: a measure that every step of the simulation makes smaller. *)
From Coq Require Import Lia.
From Verif Require Import Base BaseFacts RoundFacts Chunks DecMem Buffers BufferFacts Productions ProdSpec CycleFacts LearnFacts Sim SimFacts SerialFacts StoryFacts CostFacts BillFacts Run.
Local Open Scope string_scope.
Local Open Scope list_scope.
Local Open Scope nat_scope.

Lemma psum_except f g l : forall i p r, nth_error l p = Some r -> (forall j x, j <> i + p -> f j x = g j x) -> g (i + p) r = 0 -> psum f i l = psum g i l + f (i + p) r.
Proof.
  induction l as [|y l IH]; intros i [|p] r H E Z; cbn [nth_error] in H; try discriminate; cbn [psum].
  - injection H as ->. rewrite Nat.add_0_r in *. rewrite Z. rewrite (psum_ext f g l (S i)); [lia|]. intros j x _. apply E. lia.
  - replace (i + S p) with (S i + p) in * by lia. rewrite (IH (S i) p r H E Z). rewrite (E i y) by lia. lia.
Qed.

(** See [md] below. *)
Inductive mode := MTime | MNoConf | MNoSel.

Section End_.
Variable AM NN : nat.
Notation core := (core AM).
Notation K := (K AM).
Notation okw := (okw AM NN).

Definition hx (S : sim) : option nat := match todo S with WRun p _ :: _ => Some p | _ => None end.
Definition actw (p : nat) (S : sim) : nat := match proc_at p S with Some r => actwt (pcode r) | None => 0 end.
Definition phi (ks : nat -> nat) (S : sim) : nat := match hx S with Some p => core (Some p) ks S + ks p + actw p S | None => core None ks S end.

Lemma core_split p r ks S : proc_at p S = Some r -> core None ks S = core (Some p) ks S + ks p + (if trig S (ptarget r) then actwt (pcode r) else 0).
Proof.
  intros H. unfold core. rewrite (psum_except (share None ks S) (share (Some p) ks S) (prs S) 0 p r H).
  - cbn [Nat.add]. unfold share at 2. cbn [is_x]. lia.
  - intros j x Ne. unfold share. cbn [is_x]. destruct (Nat.eqb_spec j p); [cbn in Ne; lia|reflexivity].
  - unfold share. cbn [is_x Nat.add]. rewrite Nat.eqb_refl. reflexivity.
Qed.
Lemma norun_hx S : norun (todo S) -> hx S = None.
Proof. intros H. unfold hx. destruct (todo S) as [|[ev c|p o|ev] l]; try reflexivity. elim (H p o). left. reflexivity. Qed.

(** One process is changed. *)
Definition with_prc (p : nat) (r : prc) (S : sim) : sim := set_prs (upd (prs S) p r) S.
Lemma with_prc_at p r r' S i : proc_at p S = Some r -> proc_at i (with_prc p r' S) = if Nat.eqb i p then Some r' else proc_at i S.
Proof. intros H. unfold proc_at, with_prc. cbn [prs set_prs]. destruct (Nat.eqb_spec i p) as [->|Ne]; [apply (upd_same _ _ _ r); exact H|apply upd_other; exact Ne]. Qed.
Lemma core_prc p r r' ks ks' S : proc_at p S = Some r -> (forall i, i <> p -> ks' i = ks i) -> core (Some p) ks' (with_prc p r' S) = core (Some p) ks S.
Proof.
  intros H E. unfold core. change (base AM (with_prc p r' S)) with (base AM S). f_equal. unfold with_prc at 2. cbn [prs set_prs].
  pose proof (psum_upd (share (Some p) ks' (with_prc p r' S)) r' (prs S) 0 p r H) as U. cbn [Nat.add] in U.
  assert (Z : forall y, share (Some p) ks' (with_prc p r' S) p y = 0) by (intros y; unfold share; cbn [is_x]; rewrite Nat.eqb_refl; reflexivity).
  rewrite !Z, !Nat.add_0_r in U. rewrite U. apply psum_ext. intros j y _. unfold share. cbn [is_x Nat.add]. destruct (Nat.eqb_spec j p) as [->|Ne]; [reflexivity|]. rewrite E by exact Ne. reflexivity.
Qed.
Lemma sum_upd_same {A} (f : A -> nat) l : forall p r r', nth_error l p = Some r -> f r' = f r -> list_sum (map f (upd l p r')) = list_sum (map f l).
Proof. unfold list_sum. induction l as [|y l IH]; intros [|p] r r' H E; cbn in *; try discriminate; [injection H as ->; lia|]. rewrite (IH p r r' H E). reflexivity. Qed.
Lemma K_prc p r r' S : proc_at p S = Some r -> pkind r' = pkind r -> actwt (pcode r') <= cap (pkind r) -> K (Some p) S -> K (Some p) (with_prc p r' S).
Proof.
  intros H Ek La Hk. constructor; try apply Hk.
  - intros i x Hi. rewrite (with_prc_at p r r' S i H) in Hi. destruct (Nat.eqb_spec i p) as [->|Ne]; [injection Hi as <-; rewrite Ek; exact La|apply (k_cap _ _ _ Hk i x Hi)].
  - unfold with_prc. cbn [prs set_prs]. rewrite (sum_upd_same (fun r => cap (pkind r)) (prs S) p r r'); [apply Hk|exact H|rewrite Ek; reflexivity].
  - intros i x Hi Hx Ha. rewrite (with_prc_at p r r' S i H) in Hi. destruct (Nat.eqb_spec i p) as [->|Ne]; [cbn [is_x] in Hx; rewrite Nat.eqb_refl in Hx; discriminate|].
    apply (k_tgt _ _ _ Hk i x Hi Hx Ha).
Qed.
Lemma K_none p r S : proc_at p S = Some r -> K (Some p) S -> (actwt (pcode r) <> 0 -> role_at (ptarget r) RAct S /\ (hasenv S = true -> ptarget r <> eact S)) -> K None S.
Proof.
  intros H Hk Hp. constructor; try apply Hk. intros i x Hi _ Ha. destruct (Nat.eq_dec i p) as [->|Ne]; [rewrite H in Hi; injection Hi as <-; auto|].
  apply (k_tgt _ _ _ Hk i x Hi); [cbn [is_x]; destruct (Nat.eqb_spec i p); [contradiction|reflexivity]|exact Ha].
Qed.
Lemma K_some p S : K None S -> K (Some p) S.
Proof. intros Hk. constructor; try apply Hk. intros i x Hi _ Ha. apply (k_tgt _ _ _ Hk i x Hi); [reflexivity|exact Ha]. Qed.
Lemma K_todo x l S : K x S -> K x (set_todo l S).
Proof. intros H. constructor; try apply H. Qed.
Lemma core_todo x ks l S : core x ks (set_todo l S) + list_sum (map (wk_cost AM) (todo S)) = core x ks S + list_sum (map (wk_cost AM) l).
Proof.
  unfold core, base. cbn [heap evs todo ss prs set_todo]. change (early_of (set_todo l S)) with (early_of S).
  rewrite (psum_ext (share x ks (set_todo l S)) (share x ks S)) by (intros; reflexivity). lia.
Qed.

(** An event is changed, but not its value. *)
Definition with_evt (ev : nat) (e : evt) (S : sim) : sim := set_evs (upd (evs S) ev e) S.
Lemma with_evt_keeps ev e e' S : event_at ev S = Some e -> erole e' = erole e -> evalue e' = evalue e ->
  (forall i, value_of i (with_evt ev e' S) = value_of i S) /\ (forall i r, role_at i r S -> role_at i r (with_evt ev e' S)).
Proof.
  intros He Er Ev.
  assert (At : forall i, event_at i (with_evt ev e' S) = if Nat.eqb i ev then Some e' else event_at i S).
  { intros i. unfold event_at, with_evt. cbn [evs set_evs]. destruct (Nat.eqb_spec i ev) as [->|Ne]; [apply (upd_same _ _ _ e); exact He|apply upd_other; exact Ne]. }
  split.
  - intros i. unfold value_of. rewrite At. destruct (Nat.eqb_spec i ev) as [->|Ne]; [rewrite He; exact Ev|reflexivity].
  - intros i r (y & Hy & R). unfold role_at. rewrite At. destruct (Nat.eqb_spec i ev) as [->|Ne]; [exists e'; split; [reflexivity|congruence]|eauto].
Qed.
Lemma evt_bill x ks S ev e e' : K x S -> event_at ev S = Some e -> erole e' = erole e -> evalue e' = evalue e ->
  K x (with_evt ev e' S) /\ core x ks (with_evt ev e' S) + evcost AM e <= core x ks S + evcost AM e'.
Proof.
  intros H He Er Ev. destruct (upd_event AM NN true x ks S ev e e' H He Er (or_introl Ev)) as (Bl & _ & C). split; [apply (bill_K _ _ _ _ _ _ _ _ Bl H)|apply C; left; exact Ev].
Qed.

(** What is left alone when a process waits or ends. *)
Record after (p : nat) (S S2 : sim) : Prop := MkAfter {
  a_others : forall i, i <> p -> proc_at i S2 = proc_at i S;
  a_now : now S2 = now S;
  a_ss : ss S2 = ss S;
  a_pps : pps S2 = pps S;
  a_dead : dead S2 = dead S }.

Definition bump (ks : nat -> nat) (p w i : nat) : nat := if Nat.eqb i p then w else ks i.
Lemma bump_same ks p w : bump ks p w p = w. Proof. unfold bump. rewrite Nat.eqb_refl. reflexivity. Qed.
Lemma bump_other ks p w i : i <> p -> bump ks p w i = ks i. Proof. intros H. unfold bump. destruct (Nat.eqb_spec i p); [contradiction|reflexivity]. Qed.

Lemma finish_wait p r c ev w ks S : K (Some p) S -> proc_at p S = Some r -> actwt c <= cap (pkind r) -> norun (todo S) ->
  (actwt c <> 0 -> role_at ev RAct S /\ (hasenv S = true -> ev <> eact S)) ->
  let S2 := hand_over p ev (set_prc p (fun r => MkPrc (pkind r) (pown r) (ptarget r) c) S) in
  let ks2 := bump ks p w in
  phi ks2 S2 <= core (Some p) ks S + w + 3 + (if trig S ev then actwt c else 0) /\ K (hx S2) S2 /\ after p S S2 /\
  (exists r2, proc_at p S2 = Some r2 /\ pkind r2 = pkind r /\ pown r2 = pown r /\ pcode r2 = c) /\
  (forall i, value_of i S2 = value_of i S) /\
  (forall q o, hd_error (todo S2) = Some (WRun q o) -> q = p /\ value_of ev S = Some o).
Proof.
  intros Hk Hp Hc Hl Ha S2 ks2. set (r1 := MkPrc (pkind r) (pown r) (ptarget r) c). set (S1 := with_prc p r1 S).
  assert (E2 : S2 = hand_over p ev S1). { unfold S2, set_prc. change (nth_error (prs S) p) with (proc_at p S). rewrite Hp. reflexivity. }
  clearbody S2.
  assert (Kb : forall i, i <> p -> ks2 i = ks i) by (intros i Ne; apply bump_other; exact Ne).
  assert (K1 : K (Some p) S1) by (apply (K_prc p r); auto). assert (C1 : core (Some p) ks2 S1 = core (Some p) ks S) by (apply (core_prc p r); auto).
  assert (P1 : proc_at p S1 = Some r1) by (unfold S1; rewrite (with_prc_at p r) by exact Hp; rewrite Nat.eqb_refl; reflexivity).
  assert (O1 : forall i, i <> p -> proc_at i S1 = proc_at i S) by (intros i Ne; unfold S1; rewrite (with_prc_at p r) by exact Hp; destruct (Nat.eqb_spec i p); [contradiction|reflexivity]).
  assert (Ew : ks2 p = w) by apply bump_same.
  subst S2. unfold hand_over. change (event_at ev S1) with (event_at ev S). destruct (event_at ev S) as [e|] eqn:He.
  - assert (Te : forall o, evalue e = Some o -> trig S ev = true) by (intros o Eo; unfold trig; rewrite He; unfold triggered; rewrite Eo; reflexivity).
    assert (Im : forall o, ecbs e = None -> evalue e = Some o -> let S3 := set_todo (WRun p o :: todo S1) (exec_ (match o with Bad _ => defuse ev | _ => ret tt end) S1) in
      phi ks2 S3 <= core (Some p) ks S + w + 3 + (if trig S ev then actwt c else 0) /\ K (hx S3) S3 /\ after p S S3 /\
      (exists r2, proc_at p S3 = Some r2 /\ pkind r2 = pkind r /\ pown r2 = pown r /\ pcode r2 = c) /\ (forall i, value_of i S3 = value_of i S) /\
      (forall q o', hd_error (todo S3) = Some (WRun q o') -> q = p /\ value_of ev S = Some o')).
    { intros o Ec Eo S3. set (Sd := exec_ (match o with Bad _ => defuse ev | _ => ret tt end) S1) in *.
      assert (D : K (Some p) Sd /\ core (Some p) ks2 Sd <= core (Some p) ks2 S1 /\ (forall i, value_of i Sd = value_of i S1) /\ prs Sd = prs S1 /\ todo Sd = todo S1 /\ now Sd = now S1 /\ ss Sd = ss S1 /\ early Sd = early S1 /\ dead Sd = dead S1).
      { unfold Sd. destruct o as [v|t]; [unfold exec_; cbn [fst ret]; auto 12|]. unfold exec_, defuse, set_event, upd_. cbn [fst]. change (nth_error (evs S1) ev) with (event_at ev S). rewrite He.
        change (set_evs (upd (evs S1) ev ?y) S1) with (with_evt ev y S1). set (e' := MkEvt _ _ true _). destruct (evt_bill (Some p) ks2 S1 ev e e' K1 He eq_refl eq_refl) as [Kd Cd]. destruct (with_evt_keeps ev e e' S1 He eq_refl eq_refl) as [Vd _].
        rewrite (evcost_same AM e e' eq_refl) in Cd. split; [exact Kd|]. split; [lia|]. split; [exact Vd|]. auto 10. }
      destruct D as (Kd & Cd & Vd & Pd & Td & Nd & Sd' & Ed & Dd).
      assert (Pa : forall i, proc_at i S3 = proc_at i S1) by (intros i; unfold proc_at, S3; cbn [prs set_todo]; rewrite Pd; reflexivity).
      split; [|split; [|split; [|split; [|split]]]].
      - unfold phi, hx, S3. cbn [todo set_todo]. unfold actw. change (proc_at p (set_todo _ Sd)) with (proc_at p S3). rewrite Pa, P1. cbn [pcode r1]. rewrite (Te o Eo), Ew.
        pose proof (core_todo (Some p) ks2 (WRun p o :: todo S1) Sd) as Ct. rewrite Td in Ct. cbn [map list_sum fold_right wk_cost] in Ct. fold (list_sum (map (wk_cost AM) (todo S1))) in Ct. lia.
      - unfold hx, S3. cbn [todo set_todo]. apply K_todo. exact Kd.
      - constructor; [intros i Ne; rewrite Pa; apply O1; exact Ne|exact Nd|exact Sd'| |exact Dd]. unfold pps, early_of, S3. cbn [ss early set_todo]. rewrite Sd', Ed. reflexivity.
      - exists r1. rewrite Pa. auto.
      - intros i. change (value_of i S3) with (value_of i Sd). rewrite Vd. reflexivity.
      - unfold S3. cbn [todo set_todo hd_error]. intros q o' [= <- <-]. split; [reflexivity|]. unfold value_of. rewrite He. exact Eo. }
    assert (Wa : let S3 := set_prc p (fun r => MkPrc (pkind r) (pown r) ev (pcode r)) (exec_ (add_cb ev (CResume p)) S1) in
      phi ks2 S3 <= core (Some p) ks S + w + 3 + (if trig S ev then actwt c else 0) /\ K (hx S3) S3 /\ after p S S3 /\
      (exists r2, proc_at p S3 = Some r2 /\ pkind r2 = pkind r /\ pown r2 = pown r /\ pcode r2 = c) /\ (forall i, value_of i S3 = value_of i S) /\
      (forall q o', hd_error (todo S3) = Some (WRun q o') -> q = p /\ value_of ev S = Some o')).
    { unfold exec_, add_cb, set_event, upd_. cbn [fst]. change (nth_error (evs S1) ev) with (event_at ev S). rewrite He. set (e' := MkEvt _ _ _ _).
      change (set_evs (upd (evs S1) ev e') S1) with (with_evt ev e' S1). destruct (evt_bill (Some p) ks2 S1 ev e e' K1 He eq_refl eq_refl) as [Kd Cd]. destruct (with_evt_keeps ev e e' S1 He eq_refl eq_refl) as [Vd Rd].
      set (Sd := with_evt ev e' S1) in *. assert (Pd : proc_at p Sd = Some r1) by exact P1.
      unfold set_prc. change (nth_error (prs Sd) p) with (proc_at p Sd). rewrite Pd. cbn [pkind pown pcode r1]. set (r2 := MkPrc (pkind r) (pown r) ev c). change (set_prs (upd (prs Sd) p r2) Sd) with (with_prc p r2 Sd). set (S3 := with_prc p r2 Sd).
      assert (K3 : K (Some p) S3) by (apply (K_prc p r1); auto). assert (C3 : core (Some p) ks2 S3 = core (Some p) ks2 Sd) by (apply (core_prc p r1); auto).
      assert (P3 : forall i, proc_at i S3 = if Nat.eqb i p then Some r2 else proc_at i S1) by (intros i; apply (with_prc_at p r1 r2 Sd i Pd)).
      assert (P3p : proc_at p S3 = Some r2) by (rewrite P3, Nat.eqb_refl; reflexivity).
      assert (T3 : trig S3 ev = trig S ev) by (rewrite !trig_value; change (value_of ev S3) with (value_of ev Sd); rewrite Vd; reflexivity).
      assert (Hx : hx S3 = None) by (apply norun_hx; exact Hl).
      split; [|split; [|split; [|split; [|split]]]].
      - unfold phi. rewrite Hx, (core_split p r2 ks2 S3 P3p). cbn [ptarget pcode r2]. rewrite T3, Ew.
        assert (Ce : evcost AM e' <= evcost AM e + 3). { unfold evcost, cbs_of, e'. cbn [ecbs]. destruct (ecbs e) as [l|]; [|lia]. rewrite map_app, list_sum_app. cbn. lia. }
        lia.
      - rewrite Hx. apply (K_none p r2); auto. cbn [pcode ptarget r2]. intros A. destruct (Ha A) as [R N]. split; [|exact N]. apply Rd. exact R.
      - constructor; auto. intros i Ne. rewrite P3. destruct (Nat.eqb_spec i p); [contradiction|apply O1; exact Ne].
      - exists r2. auto.
      - intros i. change (value_of i S3) with (value_of i Sd). rewrite Vd. reflexivity.
      - intros q o' X. change (todo S3) with (todo S) in X. destruct (todo S) as [|w0 l]; [discriminate|]. injection X as ->. elim (Hl q o'). left. reflexivity. }
    destruct (ecbs e) as [l|] eqn:Ec; [exact Wa|]. destruct (evalue e) as [o|] eqn:Eo; [apply Im; auto|exact Wa].
  - assert (Az : actwt c = 0). { destruct (Nat.eq_dec (actwt c) 0) as [Z|Nz]; [exact Z|]. destruct (Ha Nz) as [(e & He' & _) _]. congruence. }
    assert (Hx : hx S1 = None) by (apply norun_hx; exact Hl). split; [|split; [|split; [|split; [|split]]]].
    + unfold phi. rewrite Hx, (core_split p r1 ks2 S1 P1). cbn [pcode ptarget r1]. rewrite Az, Ew. destruct (trig S1 (ptarget r)), (trig S ev); lia.
    + rewrite Hx. apply (K_none p r1); auto. cbn [pcode r1]. intros X. contradiction.
    + constructor; auto.
    + exists r1. auto.
    + reflexivity.
    + intros q o' X. change (todo S1) with (todo S) in X. destruct (todo S) as [|w0 l]; [discriminate|]. injection X as ->. elim (Hl q o'). left. reflexivity.
Qed.

Lemma with_evt_at ev e e' S i : event_at ev S = Some e -> event_at i (with_evt ev e' S) = if Nat.eqb i ev then Some e' else event_at i S.
Proof. intros He. unfold event_at, with_evt. cbn [evs set_evs]. destruct (Nat.eqb_spec i ev) as [->|Ne]; [apply (upd_same _ _ _ e); exact He|apply upd_other; exact Ne]. Qed.
Lemma role_fun ev r1 r2 S : role_at ev r1 S -> role_at ev r2 S -> r1 = r2.
Proof. intros (e & He & R) (e' & He' & R'). congruence. Qed.
(** An event that nobody with a credit waits for gets its value. *)
Lemma evt_value x ks S ev e o : K x S -> event_at ev S = Some e -> erole e <> RAct ->
  let S' := with_evt ev (MkEvt (erole e) (Some o) (edefused e) (ecbs e)) S in K x S' /\ core x ks S' = core x ks S.
Proof.
  intros H He Hr S'. set (e' := MkEvt (erole e) (Some o) (edefused e) (ecbs e)) in *.
  assert (Ro : forall i r, role_at i r S -> role_at i r S').
  { intros i r (y & Hy & R). unfold role_at, S'. rewrite (with_evt_at ev e) by exact He. destruct (Nat.eqb_spec i ev) as [->|Ne]; [exists e'; split; [reflexivity|cbn [erole e']; congruence]|eauto]. }
  split; [apply (keep_K AM x S S' []); auto; cbn [prs S' with_evt set_evs]; rewrite app_nil_r; reflexivity|].
  unfold core, base, S', with_evt. cbn [heap evs todo ss prs set_evs]. change (early_of (set_evs _ S)) with (early_of S).
  pose proof (list_sum_upd (evcost AM) (evs S) ev e e' He) as U. rewrite (evcost_same AM e e' eq_refl) in U.
  rewrite (psum_ext (share x ks (set_evs (upd (evs S) ev e') S)) (share x ks S)); [lia|].
  intros j r Hj. unfold share. cbn [Nat.add]. destruct (is_x x j) eqn:Ex; [reflexivity|]. destruct (Nat.eq_dec (actwt (pcode r)) 0) as [Z|Nz]; [rewrite Z; destruct (trig _ (ptarget r)), (trig S (ptarget r)); reflexivity|].
  destruct (k_tgt _ _ _ H j r Hj Ex Nz) as [R _]. unfold trig. change (set_evs (upd (evs S) ev e') S) with (with_evt ev e' S). rewrite (with_evt_at ev e) by exact He.
  destruct (Nat.eqb_spec (ptarget r) ev) as [E|Ne]; [|reflexivity]. rewrite E in R. destruct R as (y & Hy & Ry). congruence.
Qed.
Lemma finish_done p r o ks S : K (Some p) S -> proc_at p S = Some r -> norun (todo S) -> role_at (pown r) (ROwn p) S ->
  let S2 := end_process p o S in
  phi (bump ks p 0) S2 <= core (Some p) ks S + 2 /\ K (hx S2) S2 /\ after p S S2 /\ norun (todo S2) /\
  proc_at p S2 = Some (MkPrc (pkind r) (pown r) (ptarget r) KEnd) /\
  (forall i, value_of i S2 = if Nat.eqb i (pown r) then Some o else value_of i S).
Proof.
  intros Hk Hp Hl (e & He & Re) S2. set (r1 := MkPrc (pkind r) (pown r) (ptarget r) KEnd). set (S1 := with_prc p r1 S). set (e' := MkEvt (erole e) (Some o) (edefused e) (ecbs e)).
  assert (Eo : own_event p S = pown r) by (unfold own_event; change (nth_error (prs S) p) with (proc_at p S); rewrite Hp; reflexivity).
  assert (E2 : S2 = set_queue (Datatypes.S (eid S)) (heap S ++ [MkQ (now S + 0) NORMAL (eid S) (pown r)]) (with_evt (pown r) e' S1)).
  { unfold S2, end_process. rewrite Eo. unfold set_prc. change (nth_error (prs S) p) with (proc_at p S). rewrite Hp. fold r1. change (set_prs (upd (prs S) p r1) S) with S1.
    unfold exec_, bind, set_event, upd_, schedule. cbn [fst]. change (nth_error (evs S1) (pown r)) with (event_at (pown r) S). rewrite He. reflexivity. }
  clearbody S2. subst S2.
  assert (K1 : K (Some p) S1) by (apply (K_prc p r); auto; cbn; lia). assert (C1 : core (Some p) (bump ks p 0) S1 = core (Some p) ks S) by (apply (core_prc p r); auto; intros; apply bump_other; auto).
  destruct (evt_value (Some p) (bump ks p 0) S1 (pown r) e o K1 He) as [K2 C2]; [rewrite Re; discriminate|]. fold e' in K2, C2. set (S2 := with_evt (pown r) e' S1) in *.
  assert (P2 : proc_at p S2 = Some r1) by (change (proc_at p S2) with (proc_at p S1); unfold S1; rewrite (with_prc_at p r) by exact Hp; rewrite Nat.eqb_refl; reflexivity).
  set (S3 := set_queue _ _ S2). assert (P3 : proc_at p S3 = Some r1) by exact P2.
  assert (Hx : hx S3 = None) by (apply norun_hx; exact Hl).
  assert (C3 : core (Some p) (bump ks p 0) S3 = core (Some p) (bump ks p 0) S2 + 2).
  { unfold core, base, S3. cbn [heap evs todo ss prs set_queue]. change (early_of (set_queue _ _ S2)) with (early_of S2). change (heap S) with (heap S2). rewrite app_length. cbn [List.length].
    rewrite (psum_ext _ (share (Some p) (bump ks p 0) S2)); [lia|]. intros; reflexivity. }
  split; [|split; [|split; [|split; [|split]]]].
  - unfold phi. rewrite Hx, (core_split p r1 _ S3 P3), bump_same. cbn [pcode r1 actwt]. destruct (trig S3 _); lia.
  - rewrite Hx. apply (K_none p r1); [exact P3| |cbn [pcode r1 actwt]; contradiction]. constructor; apply K2.
  - constructor; try reflexivity. intros i Ne. change (proc_at i S3) with (proc_at i S1). unfold S1. rewrite (with_prc_at p r) by exact Hp. destruct (Nat.eqb_spec i p); [contradiction|reflexivity].
  - exact Hl.
  - exact P3.
  - intros i. change (value_of i S3) with (value_of i S2). unfold value_of, S2. rewrite (with_evt_at _ e) by exact He. destruct (Nat.eqb i (pown r)); reflexivity.
Qed.

(** ** Stages of the procedural process *)

Variable O : oracle.
Variable s0 : st.
Variable u : Z.
(** What comes to an end: runs up to the time [u], runs in which no conflict resolution is reported, runs in which no
    selection of a rule is reported. *)
Variable md : mode.
(** A firing takes at least 0.1 ms. *)
Hypothesis firing : md = MTime -> forall t, (t + 1 <= roundtime (seconds_of t + qfiring (sp s0))%Q)%Z.
Definition okt (S : sim) : Prop := md = MTime -> (now S < u)%Z.
Definition okc (c : code) : Prop :=
  match md, c with
  | MNoConf, KLocal true _ e _ => ewhat e <> WConflict
  | MNoSel, KLocal true _ e _ => forall r, ewhat e <> WSelected r
  | _, _ => True
  end.
Hypothesis names : List.length (snames s0) <= NN.

Inductive stage := SFree | SFail | SPre (added : bool) | SSel (b : Z) | SGate (b : Z) | SFire (b : Z) | SPost.
Definition FF (g : stage) (S : sim) : nat :=
  match md with
  | MTime =>
      match g with
      | SFree | SPre _ | SPost => Z.to_nat (3 * (u - now S))
      | SSel b | SGate b => Z.to_nat (3 * (u - b) + 2)
      | SFire b => Z.to_nat (3 * (u - b) + 1)
      | SFail => 0
      end
  | MNoConf => match g with SSel _ | SGate _ => 3 | SFire _ => 2 | SFail => 0 | _ => 1 end
  | MNoSel => match g with SGate _ => 5 | SFire _ => 4 | SSel _ => 2 | SFail => 0 | _ => 3 end
  end.
Definition TT (g : stage) (S : sim) : nat := match g with SFail => 0 | SPre true => pps S - 1 | _ => pps S end.

Definition g_conflict (t : Q) : gen := match procedural O t with GAct _ (GYield _ g) => g | _ => GRet end.
Definition shape (g : stage) (c : code) (w : nat) : Prop :=
  match g with
  | SFree | SFail => False
  | SPre false => (exists n t, c = KLocal0 true n (procedural O (seconds_of t)) /\ 16 <= w) \/ (exists n e, c = KLocal true n e GRet /\ eproc e = PROCEDURAL /\ 4 <= w)
  | SPre true => exists n t, c = KLocal true n (pev (seconds_of t) WConflict) (g_conflict (seconds_of t)) /\ 11 <= w
  | SSel b => exists n r t e, b = roundtime t /\ c = KLocal true n e (GYield (pev t WUnknown) (g_try O r t)) /\ eproc e = PROCEDURAL /\ ewhat e = WSelected r /\ 7 <= w
  | SGate b => exists n r t, b = roundtime t /\ c = KLocal true n (pev t WUnknown) (g_try O r t)
  | SFire b => exists n r ru t, b = roundtime t /\ ((exists e, c = KLocal true n e (g_fire O r ru t) /\ eproc e = PROCEDURAL /\ etime e = b /\ 7 <= w) \/ c = KLocal true n (pev t (WFired r)) (g_act O r ru t))
  | SPost => exists n e g k d, c = KLocal true n e g /\ costs k d g /\ YY AM * k + VV AM * d + ZZ AM <= w
  end.
Lemma shape_cyc g c w : shape g c w -> cyc c.
Proof.
  destruct g as [| |[]|b|b|b|]; cbn [shape]; try contradiction.
  - intros (n & t & -> & _). exact I.
  - intros [(n & t & -> & _)|(n & e & -> & _)]; exact I.
  - intros (n & r & t & e & _ & -> & _). exact I.
  - intros (n & r & t & _ & ->). exact I.
  - intros (n & r & ru & t & _ & [(e & -> & _)| ->]); exact I.
  - intros (n & e & g & k & d & -> & _). exact I.
Qed.
Lemma shape_okw g c w : shape g c w -> okw c w.
Proof.
  destruct g as [| |[]|b|b|b|]; cbn [shape]; try contradiction.
  - intros (n & t & -> & _). exact I.
  - intros [(n & t & -> & L)|(n & e & -> & _)]; [exact L|exact I].
  - intros (n & r & t & e & _ & -> & _). exact I.
  - intros (n & r & t & _ & ->). exact I.
  - intros (n & r & ru & t & _ & [(e & -> & _)| ->]); exact I.
  - intros (n & e & g & k & d & -> & _). exact I.
Qed.
Lemma cyc_actwt c : cyc c -> actwt c = 0.
Proof. destruct c; cbn; intros H; try contradiction; reflexivity. Qed.

Definition main_at (S : sim) (P : prc -> Prop) : Prop := exists m, proc_at 0 S = Some m /\ P m.
Definition stage_ok (g : stage) (ks : nat -> nat) (S : sim) : Prop :=
  match g with
  | SFree => alone None S /\ main_at S (fun m => match pcode m with KEnd => False | KProcPro _ => exists v, value_of (ptarget m) S = Some (Good v) | _ => True end)
  | SFail => alone None S /\ main_at S (fun m => match pcode m with KEnd => True | KProcPro _ => exists t, value_of (ptarget m) S = Some (Bad t) | _ => False end)
  | _ => exists q r, proc_at q S = Some r /\ alone (Some q) S /\ shape g (pcode r) (ks q)
  end.
Lemma stage_keep g ks S ks' S' :
  (forall i r, proc_at i S' = Some r -> cyc (pcode r) -> proc_at i S = Some r) ->
  (forall i r, proc_at i S = Some r -> cyc (pcode r) -> proc_at i S' = Some r /\ ks' i = ks i) ->
  proc_at 0 S' = proc_at 0 S -> (forall ev o, value_of ev S = Some o -> value_of ev S' = Some o) ->
  stage_ok g ks S -> stage_ok g ks' S'.
Proof.
  intros A B C D.
  assert (Al : forall q, alone q S -> alone q S') by (intros q H i r Hi Hc; apply (H i r); auto).
  assert (G : (exists q r, proc_at q S = Some r /\ alone (Some q) S /\ shape g (pcode r) (ks q)) -> exists q r, proc_at q S' = Some r /\ alone (Some q) S' /\ shape g (pcode r) (ks' q)).
  { intros (q & r & Hq & Ha & Hs). destruct (B q r Hq (shape_cyc _ _ _ Hs)) as [Hq' E]. exists q, r. rewrite E. auto. }
  unfold stage_ok. destruct g as [| |ad|b|b|b|]; auto.
  - intros (Ha & m & Hm & H). split; [auto|]. exists m. split; [congruence|]. destruct (pcode m); auto. destruct H as [v H]. exists v. auto.
  - intros (Ha & m & Hm & H). split; [auto|]. exists m. split; [congruence|]. destruct (pcode m); auto. destruct H as [v H]. exists v. auto.
Qed.

(** *** What the procedural process does *)

Notation charge := (charge AM NN true).
Notation bill := (bill AM NN true).

Lemma c_prelude B p e (m : M nxt) ks S Q : K (Some p) S -> eproc e = PROCEDURAL -> core (Some p) ks S + 4 <= B ->
  (forall S', bill ks S ks S' -> core (Some p) ks S' <= core (Some p) ks S + 2 -> charge B (Some p) m ks S' Q) ->
  charge B (Some p) (note e ;! activate e ;! interact ;! m) ks S Q.
Proof.
  intros H He L Hm.
  eapply c_bind with (Q1 := fun _ ks' S' => ks' = ks /\ core (Some p) ks S' = core (Some p) ks S); [apply c_note; auto|].
  intros _ ks1 S1 B1 [-> C1]. pose proof (bill_K _ _ _ _ _ _ _ _ B1 H) as H1.
  eapply c_bind with (Q1 := fun _ ks' S' => ks' = ks /\ core (Some p) ks S' <= core (Some p) ks S); [apply c_activate; [exact H1|lia|]; intros S' _ _ C; specialize (C He); split; [reflexivity|lia]|].
  intros _ ks2 S2 B2 [-> C2]. pose proof (bill_K _ _ _ _ _ _ _ _ B2 H1) as H2.
  eapply c_bind with (Q1 := fun _ ks' S' => ks' = ks /\ core (Some p) ks S' <= core (Some p) ks S + 2); [apply c_interact; [exact H2|lia|]; intros S' _ C; split; [reflexivity|lia]|].
  intros _ ks3 S3 B3 [-> C3]. apply Hm; [|exact C3]. eapply bill_trans; [exact B1|]. eapply bill_trans; eauto.
Qed.
Lemma c_next B p n g ks S s' ns o (Q : nxt -> (nat -> nat) -> sim -> Prop) : K (Some p) S -> resume g (ss S) = (s', ns, o) -> tight 0 (ss S) s' -> core (Some p) ks S + 2 <= B ->
  (forall nx S', bill ks S ks S' -> core (Some p) ks S' <= core (Some p) ks S + (match nx with NWait _ _ => 2 | NDone _ => 0 end) -> pps S' = pcount (sprocs s') + pcount (early_of S) ->
     match nx with NWait c ev => exists e' g', o = OYield e' g' /\ c = KLocal true n e' g' | NDone v => (o = ODone /\ v = XProcs) \/ exists g', o = OCont g' /\ v = XCont g' end -> Q nx ks S') ->
  charge B (Some p) (local_next true n g) ks S Q.
Proof.
  intros H Er T L HQ. unfold local_next, BillFacts.charge. rewrite Er. destruct (c_ss AM NN true (Some p) ks S s' 0 T) as [Bl C]. rewrite Nat.mul_0_r, Nat.add_0_r in C.
  assert (Pp : pps (set_ss s' S) = pcount (sprocs s') + pcount (early_of S)) by reflexivity.
  destruct o as [|e|e g'|g'].
  - exists ks. split; [exact Bl|]. apply HQ; auto; lia.
  - exists ks. split; [exact Bl|lia].
  - match goal with |- context[?m (set_ss s' S)] => change (let '(S', r) := m (set_ss s' S) in exists ks', bill ks S ks' S' /\ match r with inl a => Q a ks' S' | inr _ => core (Some p) ks' S' + 2 <= B end) end.
    apply (c_after AM NN true B (Some p) _ ks S (set_ss s' S)); [exact Bl|]. pose proof (bill_K _ _ _ _ _ _ _ _ Bl H) as H1.
    assert (Te : forall d Sx, pps (fst (timeout d Sx)) = pps Sx). { intros d Sx. unfold timeout. destruct (Z.ltb d 0); reflexivity. }
    eapply c_bind with (Q1 := fun ev ks' S' => ks' = ks /\ core (Some p) ks S' <= core (Some p) ks (set_ss s' S) + 2 /\ pps S' = pps (set_ss s' S)).
    + specialize (Te (etime e - now (set_ss s' S))%Z (set_ss s' S)).
      assert (G := c_timeout AM NN true B (Some p) (etime e - now (set_ss s' S))%Z ks (set_ss s' S) (fun _ ks' S' => ks' = ks /\ core (Some p) ks S' <= core (Some p) ks (set_ss s' S) + 2) H1).
      assert (G' : charge B (Some p) (timeout (etime e - now (set_ss s' S))) ks (set_ss s' S) (fun _ ks' S' => ks' = ks /\ core (Some p) ks S' <= core (Some p) ks (set_ss s' S) + 2)) by (apply G; [lia|auto]).
      unfold BillFacts.charge in *. destruct (timeout _ _) as [S2 [ev|t]]; [|exact G']. destruct G' as (ks' & Bt & -> & Ct). exists ks. auto.
    + intros ev ks2 S2 B2 (-> & C2 & P2). apply c_ret. apply HQ; [eapply bill_trans; eauto|lia|congruence|eauto].
  - exists ks. split; [exact Bl|]. apply HQ; eauto; lia.
Qed.

Definition bill0 (ks : nat -> nat) (S : sim) (ks' : nat -> nat) (S' : sim) : Prop := exists s', settings s' = settings (ss S) /\ bill ks (set_ss s' S) ks' S'.
Lemma bill_bill0 ks S ks' S' : bill ks S ks' S' -> bill0 ks S ks' S'.
Proof. intros H. exists (ss S). split; [reflexivity|]. destruct S; exact H. Qed.

Definition better (g : stage) (B0 : nat) (S : sim) (B : nat) (g' : stage) (S' : sim) : Prop :=
  FF g' S' < FF g S \/ (FF g' S' <= FF g S /\ TT g' S' <= TT g S /\ B <= B0).
Definition good (g : stage) (B0 : nat) (S : sim) (B p : nat) (nx : nxt) (ks' : nat -> nat) (S' : sim) : Prop :=
  match nx with
  | NWait c' ev => exists g' w', shape g' c' w' /\ core (Some p) ks' S' + w' + 3 <= B /\ better g B0 S B g' S'
  | NDone v => (forall x, v = XCont x -> costs CC 0 x) /\ core (Some p) ks' S' + 2 <= B /\ better g B0 S B SFree S'
  end.
Definition cyc_res (g : stage) (p : nat) (ks : nat -> nat) (S : sim) (m : sim * (nxt + fault)) : Prop :=
  let B0 := core (Some p) ks S + ks p in
  let '(S', r) := m in exists B ks', bill0 ks S ks' S' /\
    match r with inl nx => good g B0 S B p nx ks' S' | inr _ => core (Some p) ks' S' + 2 <= B /\ (0 < FF g S \/ B <= B0) end.
Lemma cyc_charge g p ks S B m : charge B (Some p) m ks S (good g (core (Some p) ks S + ks p) S B p) -> 0 < FF g S \/ B <= core (Some p) ks S + ks p -> cyc_res g p ks S (m S).
Proof.
  unfold BillFacts.charge, cyc_res. destruct (m S) as [S' [nx|t]]; intros (ks' & Bl & H) Hd; exists B, ks'; (split; [apply bill_bill0; exact Bl|auto]).
Qed.

Lemma tight_zero s s' : sprocs s' = sprocs s -> settings s' = settings s -> tight 0 s s'. Proof. apply tight_same. Qed.
Lemma learned_more s ru t s2 : learned s ru t = Ok s2 -> sprocs s2 = sprocs s /\ settings s2 = settings s.
Proof.
  unfold learned. intro H. destruct (rreward ru) as [rew|]; [|inversion H; auto].
  destruct (qlearn (sp s)); [|inversion H; auto].
  destruct (modify_utilities _ _ _ _ _); cbn [rbind] in H; inversion H; subst; auto.
Qed.
Lemma roundtime_of t : roundtime (seconds_of t) = t. Proof. apply roundtime_seconds. Qed.

Lemma resume_conflict t s s' ns o : resume (g_conflict t) s = (s', ns, o) -> settings s' = settings s /\ ocount (sprocs s') = ocount (sprocs s) /\ pcount (sprocs s') <= pcount (sprocs s) /\
  match o with
  | ORaise _ => True
  | OYield e g => eproc e = PROCEDURAL /\
      ((g = GRet /\ pcount (sprocs s') + 1 = pcount (sprocs s)) \/ exists r, let t' := (t + qfiring (sp s))%Q in ewhat e = WSelected r /\ g = GYield (pev t' WUnknown) (g_try O r t'))
  | _ => False
  end.
Proof.
  unfold g_conflict, procedural. cbn [resume]. set (s1 := set_extra [] _). intros H.
  destruct (select O s1) as [[r|]|e].
  - cbn [resume] in H. injection H as <- <- <-. repeat split; auto. right. exists r. split; reflexivity.
  - cbn [resume] in H. destruct (remove_procedural (sprocs s1)) as [l|] eqn:Er; cbn [resume] in H; injection H as <- <- <-; [|repeat split; auto].
    destruct (remove_procedural_counts _ _ Er) as [A B]. change (sprocs s1) with (sprocs s) in A, B. cbn [sprocs set_procs set_rule]. repeat split; auto; lia.
  - cbn [resume] in H. injection H as <- <- <-. repeat split; auto.
Qed.
Lemma resume_try r t s s' ns o : resume (g_try O r t) s = (s', ns, o) -> tight 0 s s' /\
  match o with
  | ORaise _ => True
  | OYield e g => eproc e = PROCEDURAL /\ etime e = roundtime t /\
      ((g = GRet) \/ exists ru, g = g_fire O r ru t \/ (e = pev t (WFired r) /\ g = g_act O r ru t))
  | _ => False
  end.
Proof.
  unfold g_try. cbn [resume]. intros H.
  destruct (dget (srules s) r) as [ru|]; [|cbn [resume] in H; injection H as <- <- <-; split; [apply tight_zero; reflexivity|exact I]].
  destruct (lhs_test s (rlhs ru) (svars s)) as [[b|]|e]; [| |cbn [resume] in H; injection H as <- <- <-; split; [apply tight_zero; reflexivity|exact I]].
  - cbv zeta in H. destruct (learned (set_vars b s) ru t) as [s2|e] eqn:El; [|cbn [resume] in H; injection H as <- <- <-; split; [apply tight_zero; reflexivity|exact I]].
    destruct (learned_more _ _ _ _ El) as [L1 L2]. change (sprocs (set_vars b s)) with (sprocs s) in L1. change (settings (set_vars b s)) with (settings s) in L2.
    destruct (compile_now O s2) as [[[[n again] rs]|]|e]; cbn [resume] in H; unfold g_fire in H; cbn [resume] in H; injection H as <- <- <-.
    + split; [apply tight_zero; [exact L1|exact L2]|]. repeat split. right. exists ru. left. reflexivity.
    + split; [apply tight_zero; [exact L1|exact L2]|]. repeat split. right. exists ru. right. split; reflexivity.
    + split; [apply tight_zero; [exact L1|exact L2]|exact I].
  - cbn [resume] in H. injection H as <- <- <-. split; [apply tight_zero; reflexivity|]. repeat split. left. reflexivity.
Qed.
Lemma FF_now g S S' : now S' = now S -> FF g S' = FF g S.
Proof. intros E. unfold FF. rewrite E. reflexivity. Qed.

Lemma cyc_prelude g p ks S e (m : M nxt) : K (Some p) S -> eproc e = PROCEDURAL -> 0 < FF g S \/ 4 <= ks p ->
  (forall S1, bill ks S ks S1 -> core (Some p) ks S1 <= core (Some p) ks S + 2 -> K (Some p) S1 ->
     exists B, charge B (Some p) m ks S1 (good g (core (Some p) ks S + ks p) S B p) /\ (0 < FF g S \/ B <= core (Some p) ks S + ks p)) ->
  cyc_res g p ks S ((note e ;! activate e ;! interact ;! m) S).
Proof.
  intros H He Hd Hm.
  assert (G : charge (core (Some p) ks S + 4) (Some p) (note e ;! activate e ;! interact ;! ret (NDone XUnit)) ks S (fun _ ks' S' => ks' = ks /\ bill ks S ks S' /\ core (Some p) ks S' <= core (Some p) ks S + 2)).
  { apply (c_prelude _ p); auto. intros S' Bl C. apply c_ret. auto. }
  unfold BillFacts.charge in G. unfold bind at 1 2 3 in G. unfold bind at 1 2 3.
  destruct (note e S) as [S1 [[]|t]]; [destruct (activate e S1) as [S2 [[]|t]]; [destruct (interact S2) as [S3 [[]|t]]|]|]; unfold ret in G; destruct G as (ks' & Bl & G).
  - destruct G as (-> & _ & C). destruct (Hm S3 Bl C (bill_K _ _ _ _ _ _ _ _ Bl H)) as (B & Hc & Hb).
    pose proof (c_after AM NN true B (Some p) m ks S S3 _ Bl Hc) as X. unfold cyc_res. destruct (m S3) as [S' r]. destruct X as (ks' & Bl' & X). exists B, ks'. split; [apply bill_bill0; exact Bl'|]. destruct r; auto.
  - exists (core (Some p) ks S + 4), ks'. split; [apply bill_bill0; exact Bl|]. split; [exact G|lia].
  - exists (core (Some p) ks S + 4), ks'. split; [apply bill_bill0; exact Bl|]. split; [exact G|lia].
  - exists (core (Some p) ks S + 4), ks'. split; [apply bill_bill0; exact Bl|]. split; [exact G|lia].
Qed.
Lemma FF_pos g S : match g with SFree | SPre _ | SPost => True | SSel b | SGate b | SFire b => b = now S | SFail => False end -> okt S -> 0 < FF g S.
Proof. unfold FF, okt. case_eq md; intros Em H L; [specialize (L eq_refl)| |]; destruct g; try contradiction; try subst; lia. Qed.
Ltac ff := unfold FF; case_eq md; intros; try lia.
Lemma bill_TT g ks S ks' S' : bill ks S ks' S' -> TT g S' <= TT g S.
Proof. intros Bl. pose proof (b_pps _ _ _ _ _ _ _ Bl). unfold TT. destruct g as [| |[]|b|b|b|]; lia. Qed.

Theorem cyc_go g p c o ks S : shape g c (ks p) -> K (Some p) S -> settings (ss S) = settings s0 -> okt S -> okc c ->
  (forall n e k, c = KLocal true n e k -> o = Good XUnit /\ now S = etime e) -> cyc_res g p ks S (go_on O p c o S).
Proof.
  intros Hsh H Hs Hu Hk Hdue. destruct g as [| |[]|b|b|b|]; cbn [shape] in Hsh; try contradiction.
  - (* the conflict set is computed *)
    destruct Hsh as (n & t & -> & Lw). assert (Nc : md <> MNoConf) by (intros X; unfold okc in Hk; rewrite X in Hk; apply Hk; reflexivity). destruct (Hdue _ _ _ eq_refl) as [-> Hnow]. cbn [pev etime] in Hnow. rewrite roundtime_of in Hnow.
    unfold go_on. apply cyc_prelude; [exact H|reflexivity|left; apply FF_pos; auto; exact I|].
    intros S1 Bl C H1. destruct (resume (g_conflict (seconds_of t)) (ss S1)) as [[s' ns] oo] eqn:Er.
    destruct (resume_conflict _ _ _ _ _ Er) as (R1 & R2 & R3 & R4).
    assert (T0 : tight 0 (ss S1) s') by (unfold tight; repeat split; auto; lia).
    assert (Hnow1 : now S1 = t) by (rewrite (b_now _ _ _ _ _ _ _ Bl); exact Hnow).
    assert (Sp : sp (ss S1) = sp s0) by (pose proof (b_settings _ _ _ _ _ _ _ Bl) as X; unfold settings in *; congruence).
    destruct oo as [|ex|e' g'|g'].
    + contradiction.
    + exists (core (Some p) ks S + 4). split; [|lia]. eapply (c_next _ p n _ ks S1); [exact H1|exact Er|exact T0|lia|].
      intros nx S' Bl' C' Pp Hnx. destruct nx; [destruct Hnx as (? & ? & [=] & _)|destruct Hnx as [[[=] _]|(? & [=] & _)]].
    + destruct R4 as (Ep & [[-> Ec]|(r & Eg)]).
      * exists (core (Some p) ks S + 11). split; [|lia]. eapply (c_next _ p n _ ks S1); [exact H1|exact Er|exact T0|lia|].
        intros nx S' Bl' C' Pp Hnx. destruct nx as [c ev|v]; [|destruct Hnx as [[[=] _]|(? & [=] & _)]]. destruct Hnx as (e2 & g2 & [= <- <-] & ->).
        exists (SPre false), 4. split; [right; exists n, e'; auto|]. split; [lia|]. right. split.
        { unfold FF. rewrite (b_now _ _ _ _ _ _ _ Bl'), (b_now _ _ _ _ _ _ _ Bl). case_eq md; intros; lia. }
        split; [|lia]. cbn [TT]. rewrite Pp. pose proof (b_pps _ _ _ _ _ _ _ Bl) as P1. unfold pps in P1 |- *. lia.
      * exists (core (Some p) ks S + 14). split; [|left; apply FF_pos; auto; exact I]. eapply (c_next _ p n _ ks S1); [exact H1|exact Er|exact T0|lia|].
        intros nx S' Bl' C' Pp Hnx. destruct nx as [c ev|v]; [|destruct Hnx as [[[=] _]|(? & [=] & _)]]. destruct Hnx as (e2 & g2 & [= <- <-] & ->).
        cbv zeta in Eg. destruct Eg as [Ew Eg]. exists (SSel (roundtime (seconds_of t + qfiring (sp (ss S1)))%Q)), 7. split; [exists n, r, (seconds_of t + qfiring (sp (ss S1)))%Q, e'; rewrite Eg; auto|]. split; [lia|].
        left. unfold FF. rewrite Sp. case_eq md; intros Em; [pose proof (firing Em t); specialize (Hu Em); lia|contradiction|lia].
    + contradiction.
  - destruct Hsh as [(n & t & -> & Lw)|(n & e & -> & Ep & Lw)].
    + (* the procedural process begins *)
      destruct o as [v|f]; unfold go_on.
      2: { exists (core (Some p) ks S + 2), ks. split; [apply bill_bill0, bill_refl|]. split; [lia|left; apply FF_pos; auto; exact I]. }
      assert (Er : resume (procedural O (seconds_of t)) (ss S) = (set_vars nobind (set_procs (sprocs (ss S) ++ [PProc]) (snext (ss S)) (ss S)), [], OYield (pev (seconds_of t) WConflict) (g_conflict (seconds_of t)))) by reflexivity.
      unfold local_next. rewrite Er. cbv beta iota. clear Er. set (s1 := set_vars nobind _). set (S1 := set_ss s1 S).
      assert (C1 : core (Some p) ks S1 = core (Some p) ks S).
      { unfold core, base, S1. cbn [heap evs todo ss prs set_ss sprocs s1 set_vars set_procs]. change (early_of (set_ss s1 S)) with (early_of S).
        assert (E : ocount (sprocs (ss S) ++ [PProc]) = ocount (sprocs (ss S))) by (unfold ocount; rewrite filter_app, app_length; cbn; lia). rewrite E.
        rewrite (psum_ext _ (share (Some p) ks S)); [lia|]. intros; reflexivity. }
      assert (P1 : pps S1 = pps S + 1).
      { unfold pps, S1. cbn [ss set_ss sprocs s1 set_vars set_procs]. change (early_of (set_ss s1 S)) with (early_of S). unfold pcount. rewrite filter_app, app_length. cbn. lia. }
      assert (H1 : K (Some p) S1) by (constructor; apply H).
      assert (G : charge (core (Some p) ks S + 16) (Some p) (let! ev := timeout (etime (pev (seconds_of t) WConflict) - now S1) in ret (NWait (KLocal true n (pev (seconds_of t) WConflict) (g_conflict (seconds_of t))) ev)) ks S1
        (good (SPre false) (core (Some p) ks S + ks p) S (core (Some p) ks S + 16) p)).
      { eapply c_bind with (Q1 := fun ev ks' S' => ks' = ks /\ core (Some p) ks S' <= core (Some p) ks S1 + 2).
        - apply c_timeout; [exact H1|lia|auto].
        - intros ev ks2 S2 B2 (-> & C2). apply c_ret. exists (SPre true), 11. split; [exists n, t; auto|]. split; [lia|]. right. split.
          + unfold FF. rewrite (b_now _ _ _ _ _ _ _ B2). change (now S1) with (now S). case_eq md; intros; lia.
          + split; [|lia]. cbn [TT]. pose proof (b_pps _ _ _ _ _ _ _ B2). lia. }
      match type of G with charge _ _ ?mm _ _ _ => set (m1 := mm) in G; change (cyc_res (SPre false) p ks S (m1 S1)) end.
      unfold cyc_res. unfold BillFacts.charge in G. destruct (m1 S1) as [S' r]. destruct G as (ks' & Bl & G). exists (core (Some p) ks S + 16), ks'.
      split; [exists s1; split; [reflexivity|exact Bl]|]. destruct r; [exact G|]. split; [exact G|lia].
    + (* no rule matched *)
      destruct (Hdue _ _ _ eq_refl) as [-> Hnow]. unfold go_on. apply cyc_prelude; [exact H|exact Ep|right; lia|].
      intros S1 Bl C H1. exists (core (Some p) ks S + 4). split; [|lia]. eapply (c_next _ p n _ ks S1); [exact H1|reflexivity|apply tight_zero; reflexivity|lia|].
      intros nx S' Bl' C' Pp Hnx. destruct nx as [c ev|v]; [destruct Hnx as (? & ? & [=] & _)|]. destruct Hnx as [[_ ->]|(? & [=] & _)].
      split; [discriminate|]. split; [lia|]. right. split; [unfold FF; rewrite (b_now _ _ _ _ _ _ _ Bl'), (b_now _ _ _ _ _ _ _ Bl); case_eq md; intros; lia|]. split; [|lia].
      cbn [TT]. pose proof (b_pps _ _ _ _ _ _ _ Bl'). pose proof (b_pps _ _ _ _ _ _ _ Bl). lia.
  - (* a rule was selected *)
      destruct Hsh as (n & r & t & e & Eb & -> & Ep & Ew & Lw). assert (Ns : md <> MNoSel) by (intros X; unfold okc in Hk; rewrite X in Hk; exact (Hk r Ew)).
      destruct (Hdue _ _ _ eq_refl) as [-> Hnow]. unfold go_on. apply cyc_prelude; [exact H|exact Ep|right; lia|].
      intros S1 Bl C H1. exists (core (Some p) ks S + 7). split; [|lia]. eapply (c_next _ p n _ ks S1); [exact H1|reflexivity|apply tight_zero; reflexivity|lia|].
      intros nx S' Bl' C' Pp Hnx. destruct nx as [c ev|v]; [|destruct Hnx as [[[=] _]|(? & [=] & _)]]. destruct Hnx as (e2 & g2 & [= <- <-] & ->).
      exists (SGate b), 0. split; [exists n, r, t; auto|]. split; [lia|]. right. split; [unfold FF; case_eq md; intros; try lia; contradiction|]. split; [|lia].
      cbn [TT]. pose proof (b_pps _ _ _ _ _ _ _ Bl'). pose proof (b_pps _ _ _ _ _ _ _ Bl). lia.
  - (* the rule is tried *)
      destruct Hsh as (n & r & t & Eb & ->).
      destruct (Hdue _ _ _ eq_refl) as [-> Hnow]. cbn [pev etime] in Hnow. assert (Eb' : b = now S) by congruence.
      assert (Pos : 0 < FF (SGate b) S) by (apply FF_pos; auto).
      unfold go_on. apply cyc_prelude; [exact H|reflexivity|left; exact Pos|].
      intros S1 Bl C H1. destruct (resume (g_try O r t) (ss S1)) as [[s' ns] oo] eqn:Er. destruct (resume_try _ _ _ _ _ _ Er) as (T0 & R4).
      exists (core (Some p) ks S + 20 + YY AM * 0 + VV AM * 0 + ZZ AM). split; [|left; exact Pos]. eapply (c_next _ p n _ ks S1); [exact H1|exact Er|exact T0|lia|].
      intros nx S' Bl' C' Pp Hnx.
      assert (Nw : now S' = b) by (rewrite (b_now _ _ _ _ _ _ _ Bl'), (b_now _ _ _ _ _ _ _ Bl); auto).
      destruct oo as [|ex|e' g'|g'].
      * contradiction.
      * destruct nx; [destruct Hnx as (? & ? & [=] & _)|destruct Hnx as [[[=] _]|(? & [=] & _)]].
      * destruct nx as [c ev|v]; [|destruct Hnx as [[[=] _]|(? & [=] & _)]]. destruct Hnx as (e2 & g2 & [= <- <-] & ->).
        destruct R4 as (Ep & Et & [->|(ru & [->|[-> ->]])]).
        -- exists SPost, (YY AM * 0 + VV AM * 0 + ZZ AM). split; [exists n, e', GRet, 0, 0; split; [reflexivity|]; split; [exact I|lia]|]. split; [lia|]. left. unfold FF. case_eq md; intros Em; try (specialize (Hu Em)); lia.
        -- exists (SFire b), 7. split; [exists n, r, ru, t; split; [exact Eb|]; left; exists e'; rewrite Eb; auto|]. split; [lia|]. left. unfold FF. case_eq md; intros Em; try (specialize (Hu Em)); lia.
        -- exists (SFire b), 0. split; [exists n, r, ru, t; split; [exact Eb|]; right; reflexivity|]. split; [lia|]. left. unfold FF. case_eq md; intros Em; try (specialize (Hu Em)); lia.
      * contradiction.
  - destruct Hsh as (n & r & ru & t & Eb & [(e & -> & Ep & Et & Lw)| ->]).
    + (* after the report of a compiled rule *)
      destruct (Hdue _ _ _ eq_refl) as [-> Hnow]. unfold go_on. apply cyc_prelude; [exact H|exact Ep|right; lia|].
      intros S1 Bl C H1. exists (core (Some p) ks S + 7). split; [|lia]. eapply (c_next _ p n _ ks S1); [exact H1|reflexivity|apply tight_zero; reflexivity|lia|].
      intros nx S' Bl' C' Pp Hnx. destruct nx as [c ev|v]; [|destruct Hnx as [[[=] _]|(? & [=] & _)]]. destruct Hnx as (e2 & g2 & [= <- <-] & ->).
      exists (SFire b), 0. split; [exists n, r, ru, t; split; [exact Eb|]; right; reflexivity|]. split; [lia|]. right. split; [unfold FF; case_eq md; intros; lia|]. split; [|lia].
      cbn [TT]. pose proof (b_pps _ _ _ _ _ _ _ Bl'). pose proof (b_pps _ _ _ _ _ _ _ Bl). lia.
    + (* the rule fires *)
      destruct (Hdue _ _ _ eq_refl) as [-> Hnow]. cbn [pev etime] in Hnow. assert (Eb' : b = now S) by congruence.
      assert (Pos : 0 < FF (SFire b) S) by (apply FF_pos; auto).
      unfold go_on. apply cyc_prelude; [exact H|reflexivity|left; exact Pos|].
      intros S1 Bl C H1. destruct (costs_act_rest O r ru t (ss S1)) as (k & d & g & Hg & Er).
      set (B := core (Some p) ks S + 6 + YY AM * k + VV AM * d). exists B. split; [|left; exact Pos].
      apply (charge_ext AM NN true B (Some p) (local_next true n g)); [unfold local_next; rewrite Er; reflexivity|].
      eapply c_conseq; [apply (c_local_ AM NN true B p true n g k d); [exact H1|exact Hg|unfold B; lia]|].
      intros nx ks' S' Bl' F. assert (Nw : now S' = b) by (rewrite (b_now _ _ _ _ _ _ _ Bl'), (b_now _ _ _ _ _ _ _ Bl); auto).
      destruct nx as [c ev|v]; cbn [fin_local good] in F |- *.
      * destruct F as (e & g' & k' & d' & -> & Hg' & F). exists SPost. eexists. split; [exists n, e, g', k', d'; split; [reflexivity|]; split; [exact Hg'|apply Nat.le_refl]|]. split; [exact F|]. left. unfold FF. case_eq md; intros Em; try (specialize (Hu Em)); lia.
      * destruct F as [F1 F2]. split; [exact F1|]. split; [exact F2|]. left. unfold FF. case_eq md; intros Em; try (specialize (Hu Em)); lia.
  - (* the actions of the rule *)
    destruct Hsh as (n & e & g & k & d & -> & Hg & Lw). destruct (Hdue _ _ _ eq_refl) as [-> Hnow]. unfold go_on.
    assert (Zz : ZZ AM = AM + 8) by reflexivity.
    set (B := core (Some p) ks S + ks p). apply cyc_charge with (B := B); [|right; unfold B; lia].
    eapply c_bind with (Q1 := fun _ ks' S' => ks' = ks /\ core (Some p) ks S' = core (Some p) ks S); [apply c_note; auto|].
    intros _ ks1 S1 B1 [-> C1]. pose proof (bill_K _ _ _ _ _ _ _ _ B1 H) as H1.
    eapply c_bind with (Q1 := fun _ ks' S' => ks' = ks /\ core (Some p) ks S' <= core (Some p) ks S + (AM + 2)); [apply c_activate; [exact H1|unfold B; lia|]; intros S' _ C _; split; [reflexivity|lia]|].
    intros _ ks2 S2 B2 [-> C2]. pose proof (bill_K _ _ _ _ _ _ _ _ B2 H1) as H2.
    eapply c_bind with (Q1 := fun _ ks' S' => ks' = ks /\ core (Some p) ks S' <= core (Some p) ks S + (AM + 4)); [apply c_interact; [exact H2|unfold B; lia|]; intros S' _ C; split; [reflexivity|lia]|].
    intros _ ks3 S3 B3 [-> C3]. pose proof (bill_K _ _ _ _ _ _ _ _ B3 H2) as H3.
    eapply c_conseq; [apply (c_local_ AM NN true B p true n g k d); [exact H3|exact Hg|unfold B; lia]|].
    intros nx ks' S' B4 F.
    assert (Nw : now S' = now S) by (rewrite (b_now _ _ _ _ _ _ _ B4), (b_now _ _ _ _ _ _ _ B3), (b_now _ _ _ _ _ _ _ B2), (b_now _ _ _ _ _ _ _ B1); reflexivity).
    assert (Pp : pps S' <= pps S) by (pose proof (b_pps _ _ _ _ _ _ _ B4); pose proof (b_pps _ _ _ _ _ _ _ B3); pose proof (b_pps _ _ _ _ _ _ _ B2); pose proof (b_pps _ _ _ _ _ _ _ B1); lia).
    destruct nx as [c ev|v]; cbn [fin_local good] in F |- *.
    + destruct F as (e' & g' & k' & d' & -> & Hg' & F). exists SPost. eexists. split; [exists n, e', g', k', d'; split; [reflexivity|]; split; [exact Hg'|apply Nat.le_refl]|]. split; [exact F|]. right. split; [unfold FF; rewrite Nw; case_eq md; intros; lia|]. cbn [TT]. unfold B. lia.
    + destruct F as [F1 F2]. split; [exact F1|]. split; [exact F2|]. right. split; [unfold FF; rewrite Nw; case_eq md; intros; lia|]. cbn [TT]. unfold B. lia.
Qed.

(** ** Steps *)

Notation bill1 := (BillFacts.bill AM NN false).
Lemma bill_weak ks S ks' S' : bill1 ks S ks' S' -> bill ks S ks' S'.
Proof. intros B. constructor; try apply B. intros i r L H. destruct (b_new _ _ _ _ _ _ _ B i r L H) as [A _]. split; [exact A|discriminate]. Qed.
Lemma bill_old b ks S ks' S' i r : BillFacts.bill AM NN b ks S ks' S' -> proc_at i S' = Some r -> (proc_at i S = Some r /\ ks' i = ks i) \/ (List.length (prs S) <= i /\ okw (pcode r) (ks' i) /\ (b = false -> ~ cyc (pcode r))).
Proof.
  intros B H. destruct (b_prs _ _ _ _ _ _ _ B) as (new & E & _). destruct (Nat.lt_ge_cases i (List.length (prs S))) as [L|L].
  - left. split; [|apply (b_ks _ _ _ _ _ _ _ B); exact L]. unfold proc_at in *. rewrite E, nth_error_app1 in H by exact L. exact H.
  - right. split; [exact L|]. apply (b_new _ _ _ _ _ _ _ B); assumption.
Qed.
Lemma bill_stage g ks S ks' S' : bill1 ks S ks' S' -> (exists m, proc_at 0 S = Some m) -> stage_ok g ks S -> stage_ok g ks' S'.
Proof.
  intros B (m & Hm). apply stage_keep.
  - intros i r H C. destruct (bill_old _ _ _ _ _ _ _ B H) as [[A _]|(_ & _ & A)]; [exact A|]. elim (A eq_refl C).
  - intros i r H C. split; [apply (bill_proc _ _ _ _ _ _ _ _ _ B H)|]. apply (b_ks _ _ _ _ _ _ _ B). apply nth_error_Some. unfold proc_at in H. congruence.
  - rewrite Hm. apply (bill_proc _ _ _ _ _ _ _ _ _ B Hm).
  - apply (b_keep _ _ _ _ _ _ _ B).
Qed.

Record Pre (ks : nat -> nat) (S : sim) : Prop := MkPre {
  e_told : told O s0 S;
  e_K : K (hx S) S;
  e_okw : forall i r, proc_at i S = Some r -> okw (pcode r) (ks i);
  e_val : forall ev x, value_of ev S = Some (Good (XCont x)) -> costs CC 0 x;
  e_run : forall p x, hd_error (todo S) = Some (WRun p (Good (XCont x))) -> costs CC 0 x;
  e_set : settings (ss S) = settings s0 }.

Definition less (g' : stage) (ks' : nat -> nat) (S' : sim) (g : stage) (ks : nat -> nat) (S : sim) : Prop :=
  FF g' S' < FF g S \/ (FF g' S' <= FF g S /\ (TT g' S' < TT g S \/ (TT g' S' <= TT g S /\ phi ks' S' < phi ks S))).

Lemma phi_none ks S : norun (todo S) -> phi ks S = core None ks S.
Proof. intros H. unfold phi. rewrite (norun_hx S H). reflexivity. Qed.

(** What comes after a process has been resumed. *)
Definition after_ (p : nat) (r : prc) (S S1 S2 : sim) : Prop :=
  now S2 = now S /\ pps S2 = pps S1 /\ (forall i, i <> p -> proc_at i S2 = proc_at i S1) /\ proc_at p S1 = Some r.
Lemma close ks S p o l r S1 x ks1 : Pre ks S -> dead S = None -> todo S = WRun p o :: l -> proc_at p S = Some r -> go_on O p (pcode r) o (set_todo l S) = (S1, x) -> bill0 ks (set_todo l S) ks1 S1 ->
  exists S2, sim_step O S = Some S2 /\
   match x with
   | inl (NWait c ev) => forall w, okw c w -> (actwt c <> 0 -> role_at ev RAct S1 /\ (hasenv S1 = true -> ev <> eact S1)) ->
        after_ p r S S1 S2 /\ Pre (bump ks1 p w) S2 /\ phi (bump ks1 p w) S2 <= core (Some p) ks1 S1 + w + 3 + (if trig S1 ev then actwt c else 0) /\
        (exists r2, proc_at p S2 = Some r2 /\ pkind r2 = pkind r /\ pown r2 = pown r /\ pcode r2 = c) /\ kind_of c = pkind r /\ (forall i, value_of i S2 = value_of i S1)
   | _ => let o' := match x with inl (NDone v) => Good v | inr t => Bad t | _ => Bad TRuntime end in
        (forall g, o' = Good (XCont g) -> costs CC 0 g) -> after_ p r S S1 S2 /\ Pre (bump ks1 p 0) S2 /\ phi (bump ks1 p 0) S2 <= core (Some p) ks1 S1 + 2 /\
        proc_at p S2 = Some (MkPrc (pkind r) (pown r) (ptarget r) KEnd) /\ (forall i, value_of i S2 = if Nat.eqb i (pown r) then Some o' else value_of i S1)
   end.
Proof.
  intros W Hd E Hr Eg (s' & Es & Bl). set (S0 := set_todo l S) in *.
  pose proof (e_told _ _ W) as [H J Ph Ru]. destruct (Inv_tail _ _ _ H E) as [H0 _]. fold S0 in H0.
  assert (Nl : norun l) by (unfold runnable in Ru; rewrite E in Ru; apply Ru).
  assert (Hr0 : proc_at p S0 = Some r) by exact Hr.
  pose proof (i_kind _ H0 p r Hr0) as [Hk Hkn]. pose proof (i_fits _ H0 p r Hr0) as Hf.
  assert (G : tri2 (go_on O p (pcode r) o) S0 (lands (pkind r))).
  { apply (go_on_ok _ _ _ _ _ (ptarget r)); auto; [destruct Hk; auto|apply (i_env _ H0 _ _ Hr0)|].
    intros v t -> D. apply (i_due _ H p r v t Hr); [|exact D]. rewrite E. left. reflexivity. }
  unfold tri2 in G. rewrite Eg in G. destruct G as (H1 & Wd & L).
  assert (Hr1 : proc_at p S1 = Some r) by (apply (wide_proc _ _ _ _ Wd Hr0)).
  assert (Kp : K (Some p) S1).
  { apply (bill_K _ _ _ _ _ _ _ _ Bl). pose proof (e_K _ _ W) as X. unfold hx in X. rewrite E in X. apply (K_todo _ l) in X. fold S0 in X. constructor; apply X. }
  assert (Nt1 : todo S1 = l) by (rewrite (b_todo _ _ _ _ _ _ _ Bl); reflexivity).
  assert (No1 : norun (todo S1)) by (rewrite Nt1; exact Nl).
  assert (Ok1 : forall i y, proc_at i S1 = Some y -> i <> p -> okw (pcode y) (ks1 i)).
  { intros i y Hi _. destruct (bill_old _ _ _ _ _ _ _ Bl Hi) as [[A ->]|(_ & A & _)]; [apply (e_okw _ _ W i y A)|exact A]. }
  assert (V1 : forall ev g, value_of ev S1 = Some (Good (XCont g)) -> costs CC 0 g).
  { intros ev g Hv. apply (b_cont _ _ _ _ _ _ _ Bl) in Hv. apply (e_val _ _ W ev). exact Hv. }
  assert (Se1 : settings (ss S1) = settings s0).
  { rewrite (b_settings _ _ _ _ _ _ _ Bl). change (ss (set_ss s' S0)) with s'. rewrite Es. apply (e_set _ _ W). }
  assert (Nw1 : now S1 = now S) by (rewrite (b_now _ _ _ _ _ _ _ Bl); reflexivity).
  assert (St : sim_step O S = Some (match x with inl (NWait c ev) => hand_over p ev (set_prc p (fun r => MkPrc (pkind r) (pown r) (ptarget r) c) S1) | inl (NDone v) => end_process p (Good v) S1 | inr t => end_process p (Bad t) S1 end)).
  { unfold sim_step. rewrite Hd, E. fold S0. cbn [work_off]. change (nth_error (prs S0) p) with (proc_at p S0). rewrite Hr0, Eg. destruct x as [[c ev|v]|t]; reflexivity. }
  pose proof (told_sim_step _ _ _ _ (e_told _ _ W) St) as Told2.
  assert (Ro : role_at (pown r) (ROwn p) S1) by (destruct (i_own _ H1 _ _ Hr1) as (eo & Ho & R & _); exists eo; auto).
  assert (Fin : forall o', (match x with inl (NWait c ev) => hand_over p ev (set_prc p (fun r => MkPrc (pkind r) (pown r) (ptarget r) c) S1) | inl (NDone v) => end_process p (Good v) S1 | inr t => end_process p (Bad t) S1 end) = end_process p o' S1 ->
    let S2 := end_process p o' S1 in
      ((forall g, o' = Good (XCont g) -> costs CC 0 g) -> after_ p r S S1 S2 /\ Pre (bump ks1 p 0) S2 /\ phi (bump ks1 p 0) S2 <= core (Some p) ks1 S1 + 2 /\
        proc_at p S2 = Some (MkPrc (pkind r) (pown r) (ptarget r) KEnd) /\ (forall i, value_of i S2 = if Nat.eqb i (pown r) then Some o' else value_of i S1))).
  { intros o' Eo S2. rewrite Eo in Told2. fold S2 in Told2. destruct (finish_done p r o' ks1 S1 Kp Hr1 No1 Ro) as (F1 & F2 & F3 & F4 & F5 & F6). fold S2 in F1, F2, F3, F4, F5, F6.
    intros Hc. split; [split; [rewrite (a_now _ _ _ F3); exact Nw1|]; split; [apply F3|]; split; [apply F3|exact Hr1]|]. split; [|split; [exact F1|split; [exact F5|exact F6]]].
    constructor; auto.
    - intros i y Hi. destruct (Nat.eq_dec i p) as [->|Ne]; [rewrite F5 in Hi; injection Hi as <-; exact I|]. rewrite bump_other by exact Ne. rewrite (a_others _ _ _ F3 i Ne) in Hi. apply Ok1; assumption.
    - intros ev g Hv. rewrite F6 in Hv. destruct (Nat.eqb ev (pown r)); [injection Hv as ->; apply Hc; reflexivity|apply (V1 _ _ Hv)].
    - intros q g Hq. destruct (todo S2) as [|w0 l0]; [discriminate|]. injection Hq as ->. elim (F4 q (Good (XCont g))). left. reflexivity.
    - rewrite (a_ss _ _ _ F3). exact Se1. }
  destruct x as [[c ev|v]|t].
  2: { exists (end_process p (Good v) S1). split; [exact St|]. apply (Fin (Good v)). reflexivity. }
  2: { exists (end_process p (Bad t) S1). split; [exact St|]. apply (Fin (Bad t)). reflexivity. }
  set (S2 := hand_over p ev (set_prc p (fun r => MkPrc (pkind r) (pown r) (ptarget r) c) S1)) in *.
  assert (Kc : kind_of c = pkind r) by apply L.
  assert (Ca : actwt c <= cap (pkind r)) by (rewrite <- Kc; destruct c as [|f| |k|n|n|n q|n q|[] n g|[] n e g|g|q g|e|e|]; cbn; lia).
  exists S2. split; [exact St|].
  intros w Hw Ha. destruct (finish_wait p r c ev w ks1 S1 Kp Hr1 Ca No1 Ha) as (F1 & F2 & F3 & F4 & F5 & F6). fold S2 in F1, F2, F3, F4, F5, F6.
  split; [split; [rewrite (a_now _ _ _ F3); exact Nw1|]; split; [apply F3|]; split; [apply F3|exact Hr1]|]. split; [|split; [exact F1|split; [exact F4|split; [exact Kc|exact F5]]]].
  constructor; auto.
  - intros i y Hi. destruct (Nat.eq_dec i p) as [->|Ne].
    + destruct F4 as (r2 & Hr2 & _ & _ & E2). rewrite Hr2 in Hi. injection Hi as <-. rewrite E2, bump_same. exact Hw.
    + rewrite bump_other by exact Ne. rewrite (a_others _ _ _ F3 i Ne) in Hi. apply Ok1; assumption.
  - intros i g Hv. rewrite F5 in Hv. apply (V1 _ _ Hv).
  - intros q g Hq. destruct (F6 q _ Hq) as [_ Hv]. apply (V1 _ _ Hv).
  - rewrite (a_ss _ _ _ F3). exact Se1.
Qed.

(** *** A process is resumed *)

Lemma told_alone S p r : told O s0 S -> proc_at p S = Some r -> cyc (pcode r) ->
  alone (Some p) S /\ exists m f, proc_at 0 S = Some m /\ pcode m = KProcPro f /\ ptarget m = pown r.
Proof.
  intros [_ _ (m & l & s & tail & Hm & _ & _ & Ph) _] Hp C.
  assert (No : alone None S -> False) by (intros A; discriminate (A p r Hp C)).
  destruct (pcode m) eqn:Em; try (destruct Ph as [A _]; elim (No A)).
  destruct Ph as (q & r' & Hq & _ & Ow & A & _). assert (q = p) by (pose proof (A p r Hp C); congruence). subst q.
  split; [exact A|]. exists m, first. assert (r' = r) by congruence. subst r'. auto.
Qed.
Lemma stage_alone g ks S : stage_ok g ks S -> (forall p r, proc_at p S = Some r -> ~ cyc (pcode r)) -> g = SFree \/ g = SFail.
Proof.
  intros H N. destruct g as [| |ad|b|b|b|]; auto; destruct H as (q & r & Hq & _ & Hs); elim (N q r Hq); eapply shape_cyc; exact Hs.
Qed.
Lemma own_fun S p q r r' : Inv S -> proc_at p S = Some r -> proc_at q S = Some r' -> pown r = pown r' -> p = q.
Proof. intros H Hp Hq E. destruct (i_own _ H _ _ Hp) as (e & He & R & _). destruct (i_own _ H _ _ Hq) as (e' & He' & R' & _). rewrite E in He. congruence. Qed.

Lemma run_start ks S p o l : Pre ks S -> todo S = WRun p o :: l -> exists r, proc_at p S = Some r /\ pcode r <> KEnd /\ okrun p o S /\ norun l /\ K (Some p) (set_todo l S) /\
  phi ks S = core (Some p) ks (set_todo l S) + 1 + ks p + actwt (pcode r).
Proof.
  intros W E. pose proof (e_told _ _ W) as [H J Ph Ru]. pose proof (i_tok _ H p) as T. unfold tokT in T. rewrite E, wsum_cons in T. cbn [tokW] in T. rewrite Nat.eqb_refl in T.
  destruct (proc_at p S) as [r|] eqn:Hr.
  2: { destruct (Nat.ltb_spec p (List.length (prs S))) as [L|L]; [|lia]. apply nth_error_Some in L. unfold proc_at in Hr. contradiction. }
  exists r. split; [reflexivity|]. split.
  { intros X. pose proof (j_end _ J _ _ Hr X) as Y. unfold tok, tokT in Y. rewrite E, wsum_cons in Y. cbn [tokW] in Y. rewrite Nat.eqb_refl in Y. lia. }
  unfold runnable in Ru. rewrite E in Ru. destruct Ru as [Ok Nl]. split; [exact Ok|]. split; [exact Nl|]. split.
  - pose proof (e_K _ _ W) as X. unfold hx in X. rewrite E in X. apply K_todo. exact X.
  - unfold phi, hx, actw. rewrite E, Hr. pose proof (core_todo (Some p) ks l S) as C. rewrite E in C. cbn [map list_sum fold_right wk_cost] in C. fold (list_sum (map (wk_cost AM) l)) in C. lia.
Qed.

(** The procedural process. *)
Lemma step_cyc g ks S p o l r : Pre ks S -> stage_ok g ks S -> dead S = None -> okt S -> (forall v, o = Good v -> okc (pcode r)) -> todo S = WRun p o :: l -> proc_at p S = Some r -> cyc (pcode r) ->
  exists S2 ks2 g2, sim_step O S = Some S2 /\ Pre ks2 S2 /\ stage_ok g2 ks2 S2 /\ less g2 ks2 S2 g ks S.
Proof.
  intros W Hst Hd Hu Hk E Hr C. destruct (run_start _ _ _ _ _ W E) as (r0 & Hr' & _ & Ok & Nl & K0 & Ph). assert (r0 = r) by congruence. subst r0. clear Hr'.
  pose proof (e_told _ _ W) as Td. pose proof Td as [H J _ _]. destruct (told_alone S p r Td Hr C) as (Al & m & f & Hm & Em & Et).
  assert (Hsh : shape g (pcode r) (ks p)).
  { assert (X : forall q y, proc_at q S = Some y -> shape g (pcode y) (ks q) -> shape g (pcode r) (ks p)).
    { intros q y Hq Hs. assert (q = p) by (pose proof (Al q y Hq (shape_cyc _ _ _ Hs)); congruence). subst q. congruence. }
    destruct g as [| |ad|b|b|b|]; cbn [stage_ok] in Hst; [destruct Hst as [A _]; discriminate (A p r Hr C)|destruct Hst as [A _]; discriminate (A p r Hr C)|..]; destruct Hst as (q & y & Hq & _ & Hs); apply (X q y Hq Hs). }
  assert (P0 : p <> 0) by (intros ->; rewrite Hm in Hr; injection Hr as ->; rewrite Em in C; exact C).
  set (S0 := set_todo l S) in *.
  assert (G : cyc_res g p ks S0 (go_on O p (pcode r) o S0)).
  { assert (Due : forall n e k, pcode r = KLocal true n e k -> o = Good XUnit /\ now S0 = etime e); [|apply cyc_go; auto; [apply (e_set _ _ W)|]; unfold okc; case_eq md; intros Em'; try exact I; destruct (pcode r) as [| | | | | | | | |[] n e k| | | | |] eqn:Ec; try exact I; destruct (Due _ _ _ eq_refl) as [Eo _]; specialize (Hk _ Eo); unfold okc in Hk; rewrite Em' in Hk; exact Hk].
    intros n e k Ec. destruct Ok as [_ Ok].
    assert (Ns : ~ soft (pkind r)) by (destruct (i_kind _ H _ _ Hr) as [[X|X] _]; [congruence|]; rewrite X, Ec; exact (fun x => x)).
    assert (V : value_of (ptarget r) S = Some o) by (apply Ok; [exact Hr|rewrite Ec; exact I|exact Ns]).
    pose proof (i_fits _ H _ _ Hr) as F. rewrite Ec in F. cbn [fits] in F. pose proof (j_time _ J _ _ F) as V'. assert (Eo : o = Good XUnit) by congruence. split; [exact Eo|].
    change (now S0) with (now S). apply (i_due _ H p r XUnit); [exact Hr|rewrite E, Eo; left; reflexivity|rewrite Ec; reflexivity]. }
  unfold cyc_res in G. destruct (go_on O p (pcode r) o S0) as [S1 x] eqn:Eg. destruct G as (B & ks1 & Bl & G).
  destruct (close ks S p o l r S1 x ks1 W Hd E Hr Eg Bl) as (S2 & St & Cl).
  assert (Fb : forall g' S', now S' = now S -> FF g' S' = FF g' S) by (intros; apply FF_now; assumption).
  assert (Fn : FF g S0 = FF g S) by (apply FF_now; reflexivity). assert (Tn : TT g S0 = TT g S) by reflexivity.
  assert (End : forall o', after_ p r S S1 S2 -> Pre (bump ks1 p 0) S2 -> proc_at p S2 = Some (MkPrc (pkind r) (pown r) (ptarget r) KEnd) -> (forall i, value_of i S2 = if Nat.eqb i (pown r) then Some o' else value_of i S1) ->
    stage_ok (match o' with Good _ => SFree | Bad _ => SFail end) (bump ks1 p 0) S2).
  { intros o' (_ & _ & Ao & _) W2 Hp2 V2. pose proof (e_told _ _ W2) as Td2.
    assert (Hm2 : proc_at 0 S2 = Some m). { rewrite Ao by (apply Nat.neq_sym; exact P0). destruct Bl as (s' & _ & Bl). apply (bill_proc _ _ _ _ _ _ _ _ _ Bl Hm). }
    assert (A2 : alone None S2).
    { intros i y Hi Ci. exfalso. destruct (told_alone S2 i y Td2 Hi Ci) as (_ & m' & f' & Hm' & _ & Et'). assert (m' = m) by congruence. subst m'.
      assert (i = p). { apply (own_fun S2 i p y (MkPrc (pkind r) (pown r) (ptarget r) KEnd)); auto; [apply Td2|]. cbn [pown]. congruence. } subst i. rewrite Hp2 in Hi. injection Hi as <-. exact Ci. }
    assert (Vm : value_of (ptarget m) S2 = Some o') by (rewrite V2, Et, Nat.eqb_refl; reflexivity).
    destruct o' as [v|t]; (split; [exact A2|]); exists m; (split; [exact Hm2|]); rewrite Em; eauto. }
  destruct x as [[c ev|v]|t]; cbn [good] in G.
  - destruct G as (g' & w' & Hs' & Lc & Bt). assert (Cy := shape_cyc _ _ _ Hs').
    destruct (Cl w' (shape_okw _ _ _ Hs')) as (Af & W2 & L2 & (r2 & Hr2 & _ & _ & Ec2) & _ & _); [rewrite (cyc_actwt _ Cy); contradiction|]. rewrite (cyc_actwt _ Cy) in L2.
    exists S2, (bump ks1 p w'), g'. split; [exact St|]. split; [exact W2|]. split.
    { assert (X : exists q r, proc_at q S2 = Some r /\ alone (Some q) S2 /\ shape g' (pcode r) (bump ks1 p w' q)).
      { exists p, r2. split; [exact Hr2|]. split; [apply (told_alone S2 p r2 (e_told _ _ W2) Hr2); rewrite Ec2; exact Cy|]. rewrite Ec2, bump_same. exact Hs'. }
      destruct g' as [| |ad|b|b|b|]; [contradiction Hs'|contradiction Hs'|exact X..]. }
    destruct Af as (An & Ap & _ & _).
    assert (N1 : now S1 = now S) by (destruct Bl as (s' & _ & Bl); rewrite (b_now _ _ _ _ _ _ _ Bl); reflexivity).
    unfold less. rewrite (Fb g' S2 An). unfold better in Bt. rewrite (Fb g' S1 N1), Fn, Tn in Bt.
    assert (Tp : TT g' S2 = TT g' S1) by (unfold TT; rewrite Ap; reflexivity). rewrite Tp.
    destruct Bt as [Bt|(B1 & B2 & B3)]; [left; exact Bt|]. right. split; [exact B1|]. right. split; [exact B2|]. destruct (trig S1 ev); lia.
  - destruct G as (Hc & Lc & Bt). destruct Cl as (Af & W2 & L2 & Hp2 & V2); [intros g0 [= ->]; apply Hc; reflexivity|].
    exists S2, (bump ks1 p 0), SFree. split; [exact St|]. split; [exact W2|]. split; [exact (End (Good v) Af W2 Hp2 V2)|].
    destruct Af as (An & Ap & _ & _).
    assert (N1 : now S1 = now S) by (destruct Bl as (s' & _ & Bl); rewrite (b_now _ _ _ _ _ _ _ Bl); reflexivity).
    unfold less. rewrite (Fb SFree S2 An). unfold better in Bt. rewrite (Fb SFree S1 N1), Fn, Tn in Bt.
    assert (Tp : TT SFree S2 = TT SFree S1) by (unfold TT; rewrite Ap; reflexivity). rewrite Tp.
    destruct Bt as [Bt|(B1 & B2 & B3)]; [left; exact Bt|]. right. split; [exact B1|]. right. split; [exact B2|]. lia.
  - destruct G as (Lc & Bt). destruct Cl as (Af & W2 & L2 & Hp2 & V2); [discriminate|].
    exists S2, (bump ks1 p 0), SFail. split; [exact St|]. split; [exact W2|]. split; [exact (End (Bad t) Af W2 Hp2 V2)|].
    unfold less. assert (F0 : FF SFail S2 = 0) by (unfold FF; case_eq md; reflexivity). rewrite F0. rewrite Fn in Bt. destruct Bt as [Bt|Bt]; [left; exact Bt|]. destruct (Nat.eq_dec (FF g S) 0) as [Z|Nz]; [|left; lia].
    right. split; [lia|]. right. cbn [TT]. split; lia.
Qed.

(** The main process. *)
Lemma step_main g ks S o l r : Pre ks S -> stage_ok g ks S -> dead S = None -> okt S -> todo S = WRun 0 o :: l -> proc_at 0 S = Some r -> ~ cyc (pcode r) ->
  exists S2 ks2 g2, sim_step O S = Some S2 /\ Pre ks2 S2 /\ stage_ok g2 ks2 S2 /\ less g2 ks2 S2 g ks S.
Proof.
  intros W Hst Hd Hu E Hr C. destruct (run_start _ _ _ _ _ W E) as (r0 & Hr' & Ne & Ok & Nl & K0 & Ph). assert (r0 = r) by congruence. subst r0. clear Hr'.
  pose proof (e_told _ _ W) as Td. pose proof Td as [H J _ _]. set (S0 := set_todo l S) in *.
  assert (Kd : kind_of (pcode r) = Some GMain).
  { destruct (i_kind _ H _ _ Hr) as [[X|X] _]; [contradiction|]. rewrite <- X. apply (j_main _ J 0 r Hr). reflexivity. }
  assert (Va : forall f, pcode r = KProcPro f -> value_of (ptarget r) S = Some o).
  { intros f Ef. destruct Ok as [_ Ok]. apply Ok; [exact Hr|rewrite Ef; exact I|]. destruct (i_kind _ H _ _ Hr) as [[X|X] _]; [congruence|]. rewrite X, Kd. exact (fun x => x). }
  assert (Nc : forall p y, proc_at p S = Some y -> ~ cyc (pcode y)).
  { intros p y Hp Cy. destruct (told_alone S p y Td Hp Cy) as (_ & m & f & Hm & Em & Et). assert (m = r) by congruence. subst m. pose proof (Va f Em) as V. rewrite Et in V.
    destruct (i_own _ H _ _ Hp) as (e & He & _ & X). unfold value_of in V. rewrite He in V. assert (evalue e = None) by (apply X; intros Z; rewrite Z in Cy; exact Cy). congruence. }
  assert (Hg : (g = SFree /\ forall f, pcode r = KProcPro f -> exists v, o = Good v) \/ (g = SFail /\ exists t, o = Bad t)).
  { destruct (stage_alone _ _ _ Hst Nc) as [->| ->]; cbn [stage_ok] in Hst; destruct Hst as (_ & m & Hm & Hst); assert (m = r) by congruence; subst m.
    - left. split; [reflexivity|]. intros f Ef. rewrite Ef in Hst. destruct Hst as (v & V). rewrite (Va f Ef) in V. exists v. congruence.
    - right. split; [reflexivity|]. destruct (pcode r) as [|f| | | | | | | | | | | | |] eqn:Er; try contradiction. destruct Hst as (t & V). rewrite (Va f eq_refl) in V. exists t. congruence. }
  assert (Nm : List.length (snames (ss S0)) <= NN). { pose proof (e_set _ _ W) as X. change (ss S0) with (ss S). unfold settings in X. injection X as _ X. rewrite X. exact names. }
  assert (W0 : okw (pcode r) (ks 0)) by apply (e_okw _ _ W 0 r Hr).
  assert (Hr0 : proc_at 0 S0 = Some r) by exact Hr.
  (* failure *)
  assert (Fail : forall S1 t ks1, go_on O 0 (pcode r) o S0 = (S1, inr t) -> bill ks S0 ks1 S1 -> (g = SFail -> core (Some 0) ks1 S1 + 2 <= core (Some 0) ks S0 + ks 0 + actwt (pcode r)) ->
    exists S2 ks2 g2, sim_step O S = Some S2 /\ Pre ks2 S2 /\ stage_ok g2 ks2 S2 /\ less g2 ks2 S2 g ks S).
  { intros S1 t ks1 Eg Bl Lc. destruct (close ks S 0 o l r S1 (inr t) ks1 W Hd E Hr Eg (bill_bill0 _ _ _ _ Bl)) as (S2 & St & Cl).
    destruct Cl as (Af & W2 & L2 & Hp2 & V2); [discriminate|].
    exists S2, (bump ks1 0 0), SFail. split; [exact St|]. split; [exact W2|]. split.
    - split; [|eexists; split; [exact Hp2|exact I]]. intros i y Hi Ci. exfalso. destruct (told_alone S2 i y (e_told _ _ W2) Hi Ci) as (_ & m & f & Hm & Em & _).
      rewrite Hp2 in Hm. injection Hm as <-. discriminate.
    - unfold less. assert (F0 : forall x, FF SFail x = 0) by (intros x; unfold FF; case_eq md; reflexivity). rewrite !F0. destruct Hg as [[-> _]|[-> _]]; [left; apply FF_pos; [exact I|exact Hu]|]. specialize (Lc eq_refl). right. rewrite F0. cbn [TT]. split; [lia|]. right. split; [lia|]. lia. }
  (* waiting *)
  assert (Wait : forall S1 c ev ks1 B, go_on O 0 (pcode r) o S0 = (S1, inl (NWait c ev)) -> bill ks S0 ks1 S1 -> fin AM NN B 0 (NWait c ev) ks1 S1 -> g = SFree -> (forall f, c <> KProcPro f) -> c <> KEnd ->
     pps S1 + 1 <= pps S0 \/ B <= core (Some 0) ks S0 + ks 0 + actwt (pcode r) ->
     exists S2 ks2 g2, sim_step O S = Some S2 /\ Pre ks2 S2 /\ stage_ok g2 ks2 S2 /\ less g2 ks2 S2 g ks S).
  { intros S1 c ev ks1 B Eg Bl F -> Npro Nend D. destruct (close ks S 0 o l r S1 _ ks1 W Hd E Hr Eg (bill_bill0 _ _ _ _ Bl)) as (S2 & St & Cl).
    destruct F as (w & Hw & Ha & Lf). destruct (Cl w Hw Ha) as (Af & W2 & L2 & (r2 & Hr2 & _ & _ & Ec2) & Kc & V2).
    exists S2, (bump ks1 0 w), SFree. split; [exact St|]. split; [exact W2|]. split.
    - split.
      + intros i y Hi Ci. exfalso. destruct (told_alone S2 i y (e_told _ _ W2) Hi Ci) as (_ & m & f & Hm & Em & _). assert (m = r2) by congruence. subst m. apply (Npro f). congruence.
      + exists r2. split; [exact Hr2|]. rewrite Ec2. destruct c; auto. elim (Npro first). reflexivity.
    - destruct Af as (An & Ap & _ & _). right. rewrite (FF_now _ S S2 An). cbn [TT]. rewrite Ap. split; [lia|]. pose proof (b_pps _ _ _ _ _ _ _ Bl) as Pp. change (pps S0) with (pps S) in *.
      destruct D as [D|D]; [left; lia|]. right. split; [exact Pp|]. lia. }
  destruct o as [v|t].
  2: { (* an exception *)
    assert (Et : go_on O 0 (pcode r) (Bad t) S0 = (S0, inr t)) by (destruct (pcode r) as [|f| |k|n|n|n q|n q|b n g0|b n e g0|g0|q g0|e|e|]; try discriminate Kd; try destruct k; destruct t; reflexivity).
    apply (Fail S0 t ks Et); [apply bill_refl|]. intros _. destruct (pcode r) as [|f| |k|n|n|n q|n q|b n g0|b n e g0|g0|q g0|e|e|]; try discriminate Kd; cbn [BillFacts.okw actwt] in *; try lia. destruct f; lia. }
  destruct Hg as [[Eg0 _]|[_ (t & Ht)]]; [|discriminate].
  (* what the lemmas about the code give *)
  assert (Use : forall B (Q : nxt -> (nat -> nat) -> sim -> Prop), charge B (Some 0) (go_on O 0 (pcode r) (Good v)) ks S0 Q ->
     (forall nx ks' S', go_on O 0 (pcode r) (Good v) S0 = (S', inl nx) -> bill ks S0 ks' S' -> Q nx ks' S' -> exists S2 ks2 g2, sim_step O S = Some S2 /\ Pre ks2 S2 /\ stage_ok g2 ks2 S2 /\ less g2 ks2 S2 g ks S) ->
     exists S2 ks2 g2, sim_step O S = Some S2 /\ Pre ks2 S2 /\ stage_ok g2 ks2 S2 /\ less g2 ks2 S2 g ks S).
  { intros B Q G HQ. unfold BillFacts.charge in G. destruct (go_on O 0 (pcode r) (Good v) S0) as [S1 [nx|t]] eqn:Eg; destruct G as (ks' & Bl & G).
    - apply (HQ nx ks' S1); auto.
    - apply (Fail S1 t ks'); auto. intros X. congruence. }
  assert (Start : pcode r = KProc0 \/ pcode r = KProcZero 0 -> exists S2 ks2 g2, sim_step O S = Some S2 /\ Pre ks2 S2 /\ stage_ok g2 ks2 S2 /\ less g2 ks2 S2 g ks S).
  { intros Hc. eapply (Use (core (Some 0) ks S0 + ks 0)); [apply (c_main_start AM NN true _ 0 O (pcode r) v ks S0 (ks 0)); auto|].
    intros nx ks1 S1 Eg Bl (F & (f & ev & ->) & own & init & t & En).
    destruct (close ks S 0 (Good v) l r S1 _ ks1 W Hd E Hr Eg (bill_bill0 _ _ _ _ Bl)) as (S2 & St & Cl).
    destruct F as (w & Hw & Ha & Lf). destruct (Cl w Hw Ha) as (Af & W2 & L2 & _ & _ & _). destruct Af as (An & Ap & Ao & _).
    set (q := List.length (prs S0)) in *. assert (Q0 : q <> 0). { assert (0 < List.length (prs S0)) by (apply nth_error_Some; unfold proc_at in Hr0; congruence). lia. }
    assert (Hq : proc_at q S1 = Some (MkPrc (Some (GLocal true PROCEDURAL)) own init (KLocal0 true PROCEDURAL (procedural O (seconds_of t))))).
    { unfold proc_at. rewrite En, nth_error_app2 by apply Nat.le_refl. unfold q. rewrite Nat.sub_diag. reflexivity. }
    destruct (b_new _ _ _ _ _ _ _ Bl q _ (Nat.le_refl _) Hq) as [Okq _].
    exists S2, (bump ks1 0 w), (SPre false). split; [exact St|]. split; [exact W2|]. split.
    - exists q. eexists. split; [rewrite Ao by exact Q0; exact Hq|]. split.
      + eapply (told_alone S2 q); [apply W2|rewrite Ao by exact Q0; exact Hq|exact I].
      + left. exists PROCEDURAL, t. split; [reflexivity|]. rewrite bump_other by exact Q0. exact Okq.
    - rewrite Eg0. right. rewrite (FF_now _ S S2 An). cbn [TT]. rewrite Ap. split; [unfold FF; case_eq md; intros; lia|]. right. split; [apply (b_pps _ _ _ _ _ _ _ Bl)|]. lia. }
  destruct (pcode r) as [|f| |k|n|n|n q|n q|b n g0|b n e g0|g0|q g0|e|e|] eqn:Er; try discriminate Kd.
  - apply Start. left. reflexivity.
  - destruct (remove_procedural (sprocs (ss S0))) as [l0|] eqn:El.
    + eapply Use; [apply (c_main_some AM NN true 0 O f v ks S0 l0 K0 El)|]. intros nx ks' S' Eg Bl ((F & ev & ->) & Pp). apply (Wait S' (KProcZero 4) ev ks' _ Eg Bl F Eg0); try discriminate. left. exact Pp.
    + eapply (Use (core (Some 0) ks S0 + ks 0)); [apply (c_main_none AM NN true _ 0 O f v ks S0 (ks 0) K0 W0 El); lia|]. intros nx ks' S' Eg Bl (F & ev & ->). apply (Wait S' KProcAct ev ks' _ Eg Bl F Eg0); try discriminate. right. lia.
  - eapply (Use (core (Some 0) ks S0 + 60)); [apply (c_main_act AM NN true _ 0 O v ks S0 K0); lia|]. intros nx ks' S' Eg Bl (F & ev & ->). apply (Wait S' (KProcZero 4) ev ks' _ Eg Bl F Eg0); try discriminate. right. cbn [actwt]. lia.
  - destruct k as [|k]; [apply Start; right; reflexivity|].
    eapply (Use (core (Some 0) ks S0 + ks 0)); [apply (c_main_zero AM NN true _ 0 O k v ks S0 (ks 0) K0 W0); lia|]. intros nx ks' S' Eg Bl (F & ev & ->). apply (Wait S' (KProcZero k) ev ks' _ Eg Bl F Eg0); try discriminate. right. lia.
Qed.

(** All other processes. *)
Lemma step_other g ks S p o l r : Pre ks S -> stage_ok g ks S -> dead S = None -> todo S = WRun p o :: l -> proc_at p S = Some r -> p <> 0 -> ~ cyc (pcode r) ->
  exists S2 ks2 g2, sim_step O S = Some S2 /\ Pre ks2 S2 /\ stage_ok g2 ks2 S2 /\ less g2 ks2 S2 g ks S.
Proof.
  intros W Hst Hd E Hr P0 C. destruct (run_start _ _ _ _ _ W E) as (r0 & Hr' & Ne & Ok & Nl & K0 & Ph). assert (r0 = r) by congruence. subst r0. clear Hr'.
  pose proof (e_told _ _ W) as Td. pose proof Td as [H J _ _]. set (S0 := set_todo l S) in *.
  assert (Kd : kind_of (pcode r) = pkind r /\ pkind r <> Some GMain).
  { destruct (i_kind _ H _ _ Hr) as [[X|X] _]; [contradiction|]. split; [auto|]. intros Y. apply (j_main _ J p r Hr) in Y. contradiction. }
  destruct Kd as [Kd Km].
  assert (Nm : List.length (snames (ss S0)) <= NN). { pose proof (e_set _ _ W) as X. change (ss S0) with (ss S). unfold settings in X. injection X as _ X. rewrite X. exact names. }
  assert (Pc : plain_code (pcode r) o).
  { rewrite <- Kd in Km. destruct (pcode r) as [|f| |k|n|n|n q|n q|[] n g0|[] n e g0|g0|q g0|e|e|]; destruct o; cbn in *; auto; congruence. }
  set (B := core (Some p) ks S0 + ks p + actwt (pcode r)).
  assert (G : BillFacts.charge AM NN false B (Some p) (go_on O p (pcode r) o) ks S0 (fin AM NN B p)).
  { apply (c_go AM NN false B O p (pcode r) o ks S0 (ks p)); auto; [apply (e_okw _ _ W p r Hr)|]. intros n q g0 _ Eo. apply (e_run _ _ W p). rewrite E, Eo. reflexivity. }
  unfold BillFacts.charge in G. destruct (go_on O p (pcode r) o S0) as [S1 x] eqn:Eg. destruct G as (ks1 & Bl & G).
  assert (Hst1 : stage_ok g ks1 S1). { apply (bill_stage g ks S0); [exact Bl|destruct (j_zero _ J) as (m & Hm); exists m; exact Hm|exact Hst]. }
  destruct (close ks S p o l r S1 x ks1 W Hd E Hr Eg (bill_bill0 _ _ _ _ (bill_weak _ _ _ _ Bl))) as (S2 & St & Cl).
  assert (Fin : forall w S2', after_ p r S S1 S2' -> (forall r2, proc_at p S2' = Some r2 -> ~ cyc (pcode r2)) -> (forall ev o, value_of ev S1 = Some o -> value_of ev S2' = Some o) -> phi (bump ks1 p w) S2' <= B ->
    stage_ok g (bump ks1 p w) S2' /\ less g (bump ks1 p w) S2' g ks S).
  { intros w S2' (An & Ap & Ao & Hp1) Nc Vk L2. split.
    - apply (stage_keep g ks1 S1); auto.
      + intros i y Hi Ci. destruct (Nat.eq_dec i p) as [->|Nip]; [elim (Nc y Hi Ci)|]. rewrite <- Ao by exact Nip. exact Hi.
      + intros i y Hi Ci. destruct (Nat.eq_dec i p) as [->|Nip]; [elim C; congruence|]. rewrite Ao, bump_other by exact Nip. auto.
    - unfold less. right. rewrite (FF_now g S S2' An). split; [lia|]. right. split; [|unfold B in L2; lia].
      assert (Pp : pps S2' <= pps S) by (rewrite Ap; apply (b_pps _ _ _ _ _ _ _ Bl)). unfold TT. destruct g as [| |[]|b|b|b|]; lia. }
  assert (Own : forall o', (forall i, value_of i S2 = if Nat.eqb i (pown r) then Some o' else value_of i S1) -> proc_at p S1 = Some r -> forall ev o, value_of ev S1 = Some o -> value_of ev S2 = Some o).
  { intros o' V2 Hp1 ev o1 Hv. rewrite V2. destruct (Nat.eqb_spec ev (pown r)) as [->|_]; [|exact Hv]. exfalso.
    destruct (Inv_tail _ _ _ H E) as [H0 _]. fold S0 in H0.
    assert (G2 : tri2 (go_on O p (pcode r) o) S0 (lands (pkind r))).
    { apply (go_on_ok _ _ _ _ _ (ptarget r)); auto; [apply (i_fits _ H0 p r Hr)|apply (i_env _ H0 _ _ Hr)|].
      intros v t -> D. apply (i_due _ H p r v t Hr); [|exact D]. rewrite E. left. reflexivity. }
    unfold tri2 in G2. rewrite Eg in G2. destruct G2 as (H1 & _). destruct (i_own _ H1 _ _ Hp1) as (e & He & _ & X). unfold value_of in Hv. rewrite He in Hv. assert (evalue e = None) by (apply X; exact Ne). congruence. }
  destruct x as [[c ev|v]|t].
  - destruct G as (w & Hw & Ha & Lf). destruct (Cl w Hw Ha) as (Af & W2 & L2 & (r2 & Hr2 & Kr2 & _ & Ec2) & Kc & V2).
    destruct (Fin w S2 Af) as [F1 F2]; [|intros; rewrite V2; assumption|lia|exists S2, (bump ks1 p w), g; auto].
    intros r3 Hr3. assert (r3 = r2) by congruence. subst r3. rewrite Ec2. rewrite <- Kd in Kc. intros Ci. apply C. revert Kc Ci. clear.
    destruct c as [|f| |k|n|n|n q|n q|[] n g0|[] n e g0|g0|q g0|e|e|]; cbn; try contradiction; destruct (pcode r) as [|f'| |k'|n'|n'|n' q'|n' q'|[] n' g'|[] n' e' g'|g'|q' g'|e'|e'|]; cbn; congruence || auto.
  - destruct G as (Hc & Lf). destruct Cl as (Af & W2 & L2 & Hp2 & V2); [intros g0 [= ->]; apply Hc; reflexivity|].
    destruct (Fin 0 S2 Af) as [F1 F2]; [|apply (Own (Good v) V2); apply Af|lia|exists S2, (bump ks1 p 0), g; auto].
    intros r3 Hr3. rewrite Hp2 in Hr3. injection Hr3 as <-. exact (fun x => x).
  - destruct Cl as (Af & W2 & L2 & Hp2 & V2); [discriminate|].
    destruct (Fin 0 S2 Af) as [F1 F2]; [|apply (Own (Bad t) V2); apply Af|lia|exists S2, (bump ks1 p 0), g; auto].
    intros r3 Hr3. rewrite Hp2 in Hr3. injection Hr3 as <-. exact (fun x => x).
Qed.

(** *** Everything else *)

Lemma less_phi g ks S S' : (now S <= now S')%Z -> pps S' <= pps S -> phi ks S' < phi ks S -> less g ks S' g ks S.
Proof.
  intros Nw Pp L. right. split; [|right; split; [|exact L]].
  - unfold FF. case_eq md; intros _; destruct g as [| |[]|b|b|b|]; lia.
  - unfold TT. destruct g as [| |[]|b|b|b|]; lia.
Qed.
(** A step that changes no process and no value. *)
Lemma step_still g ks S S' : Pre ks S -> stage_ok g ks S -> sim_step O S = Some S' -> prs S' = prs S -> (forall i, value_of i S' = value_of i S) -> ss S' = ss S -> early S' = early S ->
  (now S <= now S')%Z -> K (hx S') S' -> (forall p x, hd_error (todo S') = Some (WRun p (Good (XCont x))) -> costs CC 0 x) -> phi ks S' < phi ks S ->
  exists S2 ks2 g2, sim_step O S = Some S2 /\ Pre ks2 S2 /\ stage_ok g2 ks2 S2 /\ less g2 ks2 S2 g ks S.
Proof.
  intros W Hst St Ep Ev Es Ee Nw Hk Hrun L. assert (Pa : forall i, proc_at i S' = proc_at i S) by (intros i; unfold proc_at; rewrite Ep; reflexivity).
  exists S', ks, g. split; [exact St|]. split; [|split].
  - constructor; auto.
    + apply (told_sim_step _ _ _ _ (e_told _ _ W) St).
    + intros i r Hi. rewrite Pa in Hi. apply (e_okw _ _ W i r Hi).
    + intros i x Hi. rewrite Ev in Hi. apply (e_val _ _ W i x Hi).
    + rewrite Es. apply (e_set _ _ W).
  - apply (stage_keep g ks S); auto; intros *; rewrite ?Pa, ?Ev; auto.
  - apply less_phi; auto. unfold pps, early_of. rewrite Es, Ee. lia.
Qed.

Lemma step_work g ks S w l : Pre ks S -> stage_ok g ks S -> dead S = None -> todo S = w :: l -> (forall p o, w <> WRun p o) ->
  exists S2 ks2 g2, sim_step O S = Some S2 /\ Pre ks2 S2 /\ stage_ok g2 ks2 S2 /\ less g2 ks2 S2 g ks S.
Proof.
  intros W Hst Hd E Nw. pose proof (e_told _ _ W) as Td. pose proof Td as [H J _ Ru]. set (S0 := set_todo l S).
  assert (St : sim_step O S = Some (work_off O w S0)) by (unfold sim_step; rewrite Hd, E; reflexivity).
  assert (Nr : norun (todo S)). { unfold runnable in Ru. rewrite E in *. destruct w as [ev c|p o|ev]; auto. elim (Nw p o). reflexivity. }
  assert (Nl : norun l) by (rewrite E in Nr; apply (norun_tail w); exact Nr).
  assert (Hx : hx S = None) by (apply norun_hx; exact Nr). assert (Hx0 : hx S0 = None) by (apply norun_hx; exact Nl).
  assert (K0 : K None S0) by (pose proof (e_K _ _ W) as X; rewrite Hx in X; apply K_todo; exact X).
  assert (Ph : phi ks S = core None ks S0 + wk_cost AM w).
  { unfold phi. rewrite Hx. pose proof (core_todo None ks l S) as C. rewrite E in C. cbn [map list_sum fold_right] in C. fold (list_sum (map (wk_cost AM) l)) in C. fold S0 in C. lia. }
  assert (Nh : forall l', norun l' -> forall p x, hd_error l' = Some (WRun p (Good (XCont x))) -> costs CC 0 x).
  { intros l' N p x Hp. destruct l' as [|w0 l0]; [discriminate|]. injection Hp as ->. elim (N p (Good (XCont x))). left. reflexivity. }
  assert (Wp : 0 < wk_cost AM w) by (destruct w as [ev [p|p|c]|p o|ev]; cbn [wk_cost]; lia).
  assert (Stay : work_off O w S0 = S0 -> exists S2 ks2 g2, sim_step O S = Some S2 /\ Pre ks2 S2 /\ stage_ok g2 ks2 S2 /\ less g2 ks2 S2 g ks S).
  { intros X. rewrite X in St. apply (step_still g ks S S0); auto; [reflexivity|rewrite Hx0; exact K0|apply (Nh l Nl)|]. unfold phi at 1. rewrite Hx0. lia. }
  (* a process is to be resumed *)
  assert (Go : forall p r o Sd, work_off O w S0 = set_todo (WRun p o :: todo S0) Sd -> proc_at p S = Some r -> prs Sd = prs S -> (forall i, value_of i Sd = value_of i S) -> ss Sd = ss S -> early Sd = early S -> now Sd = now S -> todo Sd = todo S0 ->
     K None Sd -> core None ks Sd <= core None ks S0 -> (forall x, o = Good (XCont x) -> costs CC 0 x) -> actwt (pcode r) + 1 < wk_cost AM w + (if trig S (ptarget r) then actwt (pcode r) else 0) ->
     exists S2 ks2 g2, sim_step O S = Some S2 /\ Pre ks2 S2 /\ stage_ok g2 ks2 S2 /\ less g2 ks2 S2 g ks S).
  { intros p r o Sd X Hr E1 E2 E3 E4 E5 E6 Kd Cd Hc La. rewrite X in St. set (S2 := set_todo (WRun p o :: todo S0) Sd) in *.
    apply (step_still g ks S S2); auto; [rewrite <- E5; apply Z.le_refl| | |].
    - unfold hx. cbn [todo S2 set_todo]. apply K_todo, K_some. exact Kd.
    - cbn [todo S2 set_todo hd_error]. intros q x [= -> ->]. apply Hc. reflexivity.
    - unfold phi at 1. unfold hx, actw. cbn [todo S2 set_todo]. assert (Hr2 : proc_at p Sd = Some r) by (unfold proc_at; rewrite E1; exact Hr). change (proc_at p S2) with (proc_at p Sd). rewrite Hr2.
      pose proof (core_todo (Some p) ks (WRun p o :: todo S0) Sd) as C. fold S2 in C. rewrite E6 in C. cbn [map list_sum fold_right wk_cost] in C. fold (list_sum (map (wk_cost AM) (todo S0))) in C.
      rewrite (core_split p r ks Sd Hr2) in Cd. assert (T : trig Sd (ptarget r) = trig S (ptarget r)) by (rewrite !trig_value, E2; reflexivity). rewrite T in Cd. lia. }
  destruct w as [ev [p|p|c]|p o|ev].
  - assert (Hin : In (WCb ev (CResume p)) (todo S)) by (rewrite E; left; reflexivity). destruct (i_resw _ H _ _ Hin) as (r & Hr & Ht).
    cbn [work_off] in Stay, Go |- *. change (event_at ev S0) with (event_at ev S) in *. destruct (event_at ev S) as [e|] eqn:He; [|apply Stay; reflexivity]. destruct (evalue e) as [o|] eqn:Ev; [|apply Stay; reflexivity].
    assert (V : value_of ev S = Some o) by (unfold value_of; rewrite He; exact Ev).
    assert (Tr : trig S (ptarget r) = true) by (rewrite Ht, trig_value, V; reflexivity).
    assert (Hc : forall x, o = Good (XCont x) -> costs CC 0 x) by (intros x ->; apply (e_val _ _ W ev x V)).
    destruct o as [v|t].
    + apply (Go p r (Good v) S0); auto. rewrite Tr. cbn [wk_cost]. lia.
    + assert (Xd : exec_ (defuse ev) S0 = with_evt ev (MkEvt (erole e) (evalue e) true (ecbs e)) S0) by (unfold exec_, defuse, set_event, upd_; cbn [fst]; change (nth_error (evs S0) ev) with (event_at ev S); rewrite He; reflexivity).
      set (e' := MkEvt (erole e) (evalue e) true (ecbs e)) in *. destruct (evt_bill None ks S0 ev e e' K0 He eq_refl eq_refl) as [Kd Cd]. destruct (with_evt_keeps ev e e' S0 He eq_refl eq_refl) as [Vd _].
      rewrite (evcost_same AM e e' eq_refl) in Cd. apply (Go p r (Bad t) (with_evt ev e' S0)); auto; [rewrite Xd; reflexivity|lia|]. rewrite Tr. cbn [wk_cost]. lia.
  - cbn [work_off] in Stay, Go |- *. destruct (ended p S0) eqn:En; [apply Stay; reflexivity|]. change (nth_error (prs S0) p) with (proc_at p S) in *. destruct (proc_at p S) as [r|] eqn:Hr; [|apply Stay; reflexivity].
    assert (Hin : In (WCb ev (CInt p)) (todo S)) by (rewrite E; left; reflexivity).
    destruct (i_intw _ H _ _ Hin) as [_ (ei & Hei & Rei)]. destruct (i_role _ H _ _ _ Hei Rei) as (_ & r' & Hr' & So). assert (r' = r) by congruence. subst r'.
    assert (Ca : actwt (pcode r) <= 3). { eapply Nat.le_trans; [apply (k_cap _ _ _ K0 p r Hr)|]. destruct (pkind r) as [[]|]; cbn in *; try contradiction; lia. }
    cbv zeta in Go. set (Sd := exec_ _ S0) in Go.
    assert (X : todo Sd = todo S0 /\ prs Sd = prs S /\ (forall i, value_of i Sd = value_of i S) /\ ss Sd = ss S /\ early Sd = early S /\ now Sd = now S /\ K None Sd /\ core None ks Sd <= core None ks S0).
    { unfold Sd, exec_, set_event, upd_. cbn [fst]. change (nth_error (evs S0) (ptarget r)) with (event_at (ptarget r) S0). destruct (event_at (ptarget r) S0) as [e|] eqn:He; [|auto 12].
      set (e' := MkEvt _ _ _ _). change (set_evs (upd (evs S0) (ptarget r) e') S0) with (with_evt (ptarget r) e' S0). destruct (evt_bill None ks S0 _ e e' K0 He eq_refl eq_refl) as [Kd Cd]. destruct (with_evt_keeps _ e e' S0 He eq_refl eq_refl) as [Vd _].
      assert (Ce : evcost AM e' <= evcost AM e).
      { unfold evcost, cbs_of, e'. cbn [ecbs]. destruct (ecbs e) as [lc|]; [|apply Nat.le_refl]. clear. induction lc as [|d lc IH]; [apply Nat.le_refl|]. cbn [remove_cb]. destruct (cb_eqb d (CResume p)); cbn [map list_sum fold_right]; unfold list_sum in *; lia. }
      split; [reflexivity|]. split; [reflexivity|]. split; [exact Vd|]. split; [reflexivity|]. split; [reflexivity|]. split; [reflexivity|]. split; [exact Kd|lia]. }
    destruct X as (X1 & X2 & X3 & X4 & X5 & X6 & X7 & X8).
    apply (Go p r (Bad TInterrupt) Sd); auto; [rewrite X1; reflexivity|discriminate|]. cbn [wk_cost]. destruct (trig S (ptarget r)); lia.
  - cbn [work_off] in St |- *. unfold exec_ in St.
    assert (G : BillFacts.charge AM NN false (core None ks S0 + AM + 2) None (check c ev) ks S0 (fun _ ks' S' => ks' = ks /\ core None ks S' <= core None ks S0 + 2 + AM)).
    { apply c_check; [exact K0|lia|auto]. }
    unfold BillFacts.charge in G. destruct (check c ev S0) as [S1 x]. cbn [fst] in St. destruct G as (ks1 & Bl & G).
    assert (T1 : todo S1 = l) by (rewrite (b_todo _ _ _ _ _ _ _ Bl); reflexivity). assert (N1 : norun (todo S1)) by (rewrite T1; exact Nl).
    assert (Lc : core None ks1 S1 <= core None ks S0 + AM + 2) by (destruct x; [destruct G as [-> G]|]; lia).
    exists S1, ks1, g. split; [exact St|]. split; [|split].
    + constructor.
      * apply (told_sim_step _ _ _ _ Td St).
      * rewrite (norun_hx _ N1). apply (bill_K _ _ _ _ _ _ _ _ Bl K0).
      * intros i y Hi. destruct (bill_old _ _ _ _ _ _ _ Bl Hi) as [[A ->]|(_ & A & _)]; [apply (e_okw _ _ W i y A)|exact A].
      * intros i g0 Hv. apply (b_cont _ _ _ _ _ _ _ Bl) in Hv. apply (e_val _ _ W i). exact Hv.
      * rewrite T1. apply (Nh l Nl).
      * rewrite (b_settings _ _ _ _ _ _ _ Bl). apply (e_set _ _ W).
    + apply (bill_stage g ks S0); [exact Bl|destruct (j_zero _ J) as (m & Hm); exists m; exact Hm|exact Hst].
    + right. rewrite (FF_now g S S1) by (rewrite (b_now _ _ _ _ _ _ _ Bl); reflexivity). split; [lia|]. right. split.
      * pose proof (b_pps _ _ _ _ _ _ _ Bl) as Pp. change (pps S0) with (pps S) in Pp. unfold TT. destruct g as [| |[]|b|b|b|]; lia.
      * rewrite (phi_none _ _ N1), Ph. cbn [wk_cost]. lia.
  - elim (Nw p o). reflexivity.
  - cbn [work_off] in Stay, St |- *. destruct (event_at ev S0) as [e|]; [|apply Stay; reflexivity]. destruct (evalue e) as [[v|t]|]; try (apply Stay; reflexivity). destruct (edefused e); [apply Stay; reflexivity|].
    apply (step_still g ks S (set_dead (Some t) S0)); auto; try reflexivity.
    + change (hx (set_dead (Some t) S0)) with (hx S0). rewrite Hx0. constructor; apply K0.
    + apply (Nh l Nl).
    + unfold phi at 1. change (hx (set_dead (Some t) S0)) with (hx S0). rewrite Hx0. change (core None ks (set_dead (Some t) S0)) with (core None ks S0). lia.
Qed.

Lemma pop_length l q h : pop_min l = Some (q, h) -> List.length l = Datatypes.S (List.length h).
Proof.
  revert q h. induction l as [|x l IH]; intros q h H; cbn [pop_min] in H; [discriminate|]. destruct (pop_min l) as [[m r]|] eqn:E.
  - specialize (IH _ _ eq_refl). destruct (earlier x m); injection H as <- <-; cbn [List.length]; lia.
  - injection H as <- <-. destruct l as [|y l]; [reflexivity|]. cbn [pop_min] in E. destruct (pop_min l) as [[m r]|]; [destruct (earlier y m)|]; discriminate.
Qed.
Lemma step_pop g ks S q h : Pre ks S -> stage_ok g ks S -> dead S = None -> todo S = [] -> pop_min (heap S) = Some (q, h) ->
  exists S2 ks2 g2, sim_step O S = Some S2 /\ Pre ks2 S2 /\ stage_ok g2 ks2 S2 /\ less g2 ks2 S2 g ks S.
Proof.
  intros W Hst Hd E Ep. pose proof (e_told _ _ W) as Td. pose proof Td as [H J _ _]. destruct (pop_min_ok _ _ _ Ep) as [Hq _]. destruct (i_heap _ H _ Hq) as (Lt & e & He & _).
  set (S1 := set_now (qtime q) (set_queue (eid S) h S)). set (e' := MkEvt (erole e) (evalue e) (edefused e) None).
  set (cbl := map (WCb (qev q)) (match ecbs e with Some l => l | None => [] end)). set (S2 := set_todo (cbl ++ [WEnd (qev q)]) (with_evt (qev q) e' S1)).
  assert (St : sim_step O S = Some S2).
  { unfold sim_step. rewrite Hd, E, Ep. cbv zeta. fold S1. change (event_at (qev q) S1) with (event_at (qev q) S). rewrite He. unfold exec_, set_event, upd_. cbn [fst]. change (nth_error (evs S1) (qev q)) with (event_at (qev q) S). rewrite He. reflexivity. }
  assert (Hx : hx S = None) by (unfold hx; rewrite E; reflexivity).
  assert (K1 : K None S1) by (pose proof (e_K _ _ W) as X; rewrite Hx in X; constructor; apply X).
  destruct (evt_bill None ks S1 (qev q) e e' K1 He eq_refl eq_refl) as [K2 C2]. destruct (with_evt_keeps (qev q) e e' S1 He eq_refl eq_refl) as [V2 _].
  assert (N2 : norun (todo S2)).
  { intros p o Hi. cbn [todo S2 set_todo] in Hi. apply in_app_iff in Hi. unfold cbl in Hi. rewrite in_map_iff in Hi. destruct Hi as [(d & D & _)|[D|[]]]; discriminate. }
  apply (step_still g ks S S2); auto.
  - rewrite (norun_hx _ N2). apply K_todo. exact K2.
  - intros p x Hp. destruct (todo S2) as [|w0 l0] eqn:Et; [discriminate|]. injection Hp as ->. elim (N2 p (Good (XCont x))). left. reflexivity.
  - rewrite (phi_none _ _ N2). unfold phi. rewrite Hx.
    assert (C1 : core None ks S1 + 2 = core None ks S).
    { unfold core, base, S1. cbn [heap evs todo ss prs set_now set_queue]. change (early_of (set_now (qtime q) (set_queue (eid S) h S))) with (early_of S). rewrite (pop_length _ _ _ Ep).
      rewrite (psum_ext (share None ks (set_now (qtime q) (set_queue (eid S) h S))) (share None ks S)) by (intros; reflexivity). lia. }
    pose proof (core_todo None ks (cbl ++ [WEnd (qev q)]) (with_evt (qev q) e' S1)) as C3. fold S2 in C3. change (todo (with_evt (qev q) e' S1)) with (todo S) in C3. rewrite E in C3. cbn [map list_sum fold_right] in C3.
    rewrite map_app, list_sum_app in C3. cbn [map list_sum fold_right wk_cost] in C3.
    assert (Cc : list_sum (map (wk_cost AM) cbl) <= evcost AM e).
    { unfold cbl, evcost, cbs_of. destruct (ecbs e) as [lc|]; [|apply Nat.le_refl]. clear. unfold list_sum. induction lc as [|d lc IH]; [apply Nat.le_refl|]. cbn [map fold_right]. destruct d; cbn [wk_cost cb_cost] in *; lia. }
    assert (Ce : evcost AM e' = 0) by reflexivity. lia.
Qed.

(** *** Every step *)
Theorem step_less g ks S S' : Pre ks S -> stage_ok g ks S -> dead S = None -> okt S -> (forall p v l r, todo S = WRun p (Good v) :: l -> proc_at p S = Some r -> okc (pcode r)) -> sim_step O S = Some S' ->
  exists ks' g', Pre ks' S' /\ stage_ok g' ks' S' /\ less g' ks' S' g ks S.
Proof.
  intros W Hst Hd Hu Hk Hs.
  assert (G : exists S2 ks2 g2, sim_step O S = Some S2 /\ Pre ks2 S2 /\ stage_ok g2 ks2 S2 /\ less g2 ks2 S2 g ks S); [|destruct G as (S2 & ks2 & g2 & E & G); exists ks2, g2; rewrite Hs in E; injection E as <-; exact G].
  destruct (todo S) as [|w l] eqn:E.
  - destruct (pop_min (heap S)) as [[q h]|] eqn:Ep; [apply (step_pop g ks S q h); auto|]. unfold sim_step in Hs. rewrite Hd, E, Ep in Hs. discriminate.
  - destruct w as [ev c|p o|ev]; try (eapply step_work; eauto; discriminate).
    destruct (run_start _ _ _ _ _ W E) as (r & Hr & _).
    assert (D : cyc (pcode r) \/ ~ cyc (pcode r)) by (destruct (pcode r) as [|f| |k|n|n|n q|n q|[] n g0|[] n e g0|g0|q g0|e|e|]; cbn; tauto).
    destruct D as [D|D]; [eapply step_cyc; eauto; intros v ->; exact (Hk p v l r eq_refl Hr)|]. destruct p as [|p]; [eapply step_main; eauto|eapply step_other; eauto].
Qed.

(** ** Runs *)
Definition three : Type := nat * (nat * nat).
Definition lex3 (a b : three) : Prop := fst a < fst b \/ (fst a <= fst b /\ (fst (snd a) < fst (snd b) \/ (fst (snd a) <= fst (snd b) /\ snd (snd a) < snd (snd b)))).
Lemma lex3_wf : well_founded lex3.
Proof.
  intros [a [b c]]. revert b c. induction a as [a IHa] using lt_wf_ind. induction b as [b IHb] using lt_wf_ind. induction c as [c IHc] using lt_wf_ind.
  constructor. intros [a' [b' c']] [L|[L [M|[M N]]]]; cbn [fst snd] in *.
  - apply IHa. exact L.
  - destruct (Nat.eq_dec a' a) as [->|Ne]; [apply IHb; exact M|apply IHa; lia].
  - destruct (Nat.eq_dec a' a) as [->|Ne]; [|apply IHa; lia]. destruct (Nat.eq_dec b' b) as [->|Ne]; [apply IHc; exact N|apply IHb; lia].
Qed.
Theorem loop_total g ks S : md = MTime -> Pre ks S -> stage_ok g ks S -> (now S < u)%Z -> exists S', loop O u S S' /\ (dead S' = None -> (now S' < u)%Z).
Proof.
  intros Md. remember (FF g S, (TT g S, phi ks S)) as m eqn:Em. revert g ks S Em. pattern m. apply (well_founded_ind lex3_wf). clear m. intros m IH g ks S Em W Hst Hu.
  destruct (dead S) as [t|] eqn:Hd; [exists S; split; [apply (loop_dead O u S t Hd)|congruence]|].
  destruct (reached u S) eqn:Hr; [exists S; split; [apply loop_stop; assumption|auto]|].
  assert (Hs : exists S', sim_step O S = Some S' /\ (now S' < u)%Z).
  { unfold reached, between, peek in Hr. unfold sim_step. rewrite Hd. destruct (todo S) as [|w l] eqn:Et.
    - destruct (pop_min (heap S)) as [[q h]|] eqn:Ep; [|discriminate]. cbn [andb] in Hr. apply Z.leb_gt in Hr. cbv zeta. destruct (event_at _ _); eexists; (split; [reflexivity|]).
      + unfold exec_, set_event, upd_. cbn [fst]. destruct (nth_error _ _); exact Hr.
      + exact Hr.
    - eexists. split; [reflexivity|].
      rewrite (work_clock O w l S (t_inv _ _ _ (e_told _ _ W)) Et). exact Hu. }
  destruct Hs as (S1 & Hs & Hu1). destruct (step_less g ks S S1 W Hst Hd (fun _ => Hu)) as (ks1 & g1 & W1 & Hst1 & L); [intros; unfold okc; rewrite Md; exact I|exact Hs|].
  destruct (IH (FF g1 S1, (TT g1 S1, phi ks1 S1))) with (g := g1) (ks := ks1) (S := S1) as (S2 & Hl & Hn); auto; [subst m; exact L|].
  exists S2. split; [apply (loop_step O u S S1 S2); assumption|exact Hn].
Qed.
End End_.
