(** Facts about the procedural process: the sequence of events, what is tested when, and utility
    learning. *)
From Coq Require Import Permutation Lqa.
From Verif Require Import Base BaseFacts Chunks DecMem Buffers Productions ProdSpec ProdFacts ActFacts HarvestFacts.
Local Open Scope string_scope.

Lemma runs_step R g s tr f s' ns o : resume g s = (s', ns, o) -> runs R g s tr f ->
  (tr = [] /\ f = FCut) \/
  match o with
  | ODone => tr = [MkHop s ns None s'] /\ f = FDone
  | ORaise e => tr = [MkHop s ns None s'] /\ f = FRaise e
  | OCont k => tr = [MkHop s ns None s'] /\ f = FCont k
  | OYield e k => exists s'' tr', tr = MkHop s ns (Some e) s' :: tr' /\ R s' s'' /\ runs R k s'' tr' f
  end.
Proof.
  intros E Hr. inversion Hr as [|? ? ? ? H|? ? ? ? ? H|? ? ? ? ? H|? ? ? ? ? ? ? ? ? H HR Hr']; subst;
    [left; auto|right|right|right|right]; rewrite E in H; inversion H; subst; auto.
  eauto 8.
Qed.

Lemma notes_gseq_app g : forall k l l', notes g l -> notes k l' -> notes (gseq g k) (l ++ l').
Proof.
  induction g as [|e|e g IH|g IH|n g IH|f g IH|h IH]; cbn [gseq notes]; intros k l l' Hg Hk; auto.
  - subst l. exact Hk.
  - split; [tauto|]. apply IH; tauto.
  - destruct Hg as (l1 & -> & Hg). exists (l1 ++ l')%list. split; [reflexivity|auto].
Qed.

(** A step that leaves buffers and modules alone. *)
Definition calm (h : hop) : Prop :=
  sw (hafter h) = sw (hbefore h) /\ smods (hafter h) = smods (hbefore h) /\ snames (hafter h) = snames (hbefore h) /\
  sp (hafter h) = sp (hbefore h).

(** The rest of a cycle after the test at firing time succeeded. *)
Definition g_act (O : oracle) (r : string) (ru : rule) (t : Q) : gen :=
  gseq (g_update O (rrhs ru) t)
  (GAct (fun s =>
     match slast s with
     | Some l =>
         if negb (String.eqb l "") && negb (String.eqb l r) then
           set_cur (scur s) (no_slotvals s) (set_last (Some r) (Some (l, r, slastv s)) s)
         else set_last (Some r) (scomp s) s
     | None => set_last (Some r) (scomp s) s
     end) GRet).

Lemma act_notes O r ru t : exists l, notes (g_act O r ru t) l.
Proof.
  unfold g_act. destruct (ordered_rhs (rrhs ru)) as [l|e] eqn:E.
  - exists (map fst l ++ [])%list. apply notes_gseq_app; [now apply update_notes|reflexivity].
  - exists []. cbn. intro s. rewrite E. exact I.
Qed.

Definition pev (t : Q) (w : what) : event := MkEv (roundtime t) PROCEDURAL w.

(** What [learned] leaves alone. *)
Lemma learned_fields s ru t s2 : learned s ru t = Ok s2 ->
  sw s2 = sw s /\ smods s2 = smods s /\ snames s2 = snames s /\ sp s2 = sp s /\ svars s2 = svars s /\ sorder s2 = sorder s.
Proof.
  unfold learned. intro H. destruct (rreward ru) as [rew|]; [|inversion H; auto 10].
  destruct (qlearn (sp s)); [|inversion H; auto 10].
  destruct (modify_utilities _ _ _ _ _); cbn [rbind] in H; inversion H; subst; cbn; auto 10.
Qed.

Lemma fire_shape R O r ru t s tr f : runs R (g_fire O r ru t) s tr f ->
  (tr = [] /\ f = FCut) \/
  exists h s1 tr1, tr = h :: tr1 /\ hbefore h = s /\ hstarted h = [] /\ hevent h = Some (pev t (WFired r)) /\ calm h /\
    svars (hafter h) = svars s /\ srules (hafter h) = srules s /\ R (hafter h) s1 /\ runs R (g_act O r ru t) s1 tr1 f.
Proof.
  intro Hr. eapply runs_step in Hr; [|unfold g_fire; cbn [resume]; reflexivity].
  destruct Hr as [Hr|(s1 & tr1 & -> & HR & Hr)]; [now left|right].
  do 3 eexists. split; [reflexivity|]. cbn. repeat split; auto; eassumption.
Qed.

Lemma try_shape R O r t s tr f : runs R (g_try O r t) s tr f ->
  (tr = [] /\ f = FCut) \/
  (exists h e, tr = [h] /\ hbefore h = s /\ hstarted h = [] /\ hevent h = None /\ calm h /\ f = FRaise e /\
     (svars (hafter h) = svars s \/ exists ru, dget (srules s) r = Some ru /\ conds_hold s (rlhs ru) (svars s) (svars (hafter h)))) \/
  (exists h ru, hbefore h = s /\ hafter h = s /\ hstarted h = [] /\ hevent h = Some (pev t (WStopped r)) /\ dget (srules s) r = Some ru /\
     (forall b, ~ conds_hold s (rlhs ru) (svars s) b) /\
     ((tr = [h] /\ f = FCut) \/ (exists s1, tr = [h; MkHop s1 [] None s1] /\ R s s1 /\ f = FDone))) \/
  (exists h ru, hbefore h = s /\ hstarted h = [] /\ calm h /\ dget (srules s) r = Some ru /\ conds_hold s (rlhs ru) (svars s) (svars (hafter h)) /\
     (exists s2, learned (set_vars (svars (hafter h)) s) ru t = Ok s2 /\ sused (hafter h) = sused s2 /\
        (compile_now O s2 = Ok None -> srules (hafter h) = srules s2)) /\
     ((hevent h = Some (pev t (WFired r)) /\
        exists s1 tr1, tr = h :: tr1 /\ R (hafter h) s1 /\ runs R (g_act O r ru t) s1 tr1 f) \/
      (exists again n, hevent h = Some (pev t (WCompiled again n)) /\
        exists s1 tr1, tr = h :: tr1 /\ R (hafter h) s1 /\ runs R (g_fire O r ru t) s1 tr1 f))).
Proof.
  intro Hr.
  destruct (dget (srules s) r) as [ru|] eqn:Er.
  2:{ eapply runs_step in Hr; [|unfold g_try; cbn [resume]; rewrite Er; cbn [resume]; reflexivity].
      destruct Hr as [Hr|[-> ->]]; [now left|]. right. left. do 2 eexists. split; [reflexivity|]. cbn. repeat split; auto. }
  destruct (lhs_test s (rlhs ru) (svars s)) as [[b|]|e] eqn:Et.
  - pose proof Et as Hc. apply lhs_test_iff in Hc.
    destruct (learned (set_vars b s) ru t) as [s2|e] eqn:El.
    + pose proof (learned_fields _ _ _ _ El) as (F1 & F2 & F3 & F4 & F5 & F6). cbn in F1, F2, F3, F4, F5, F6.
      destruct (compile_now O s2) as [[[[n again] rs]|]|e] eqn:Ec.
      * eapply runs_step in Hr; [|unfold g_try; cbn [resume]; rewrite Er, Et; cbv zeta; rewrite El, Ec; cbn [resume]; reflexivity].
        destruct Hr as [Hr|(s1 & tr1 & -> & HR & Hr)]; [now left|]. do 3 right.
        match goal with |- context[?h :: tr1] => exists h, ru end.
        cbn [hbefore hstarted hafter hevent]. split; [reflexivity|]. split; [reflexivity|].
        split; [unfold calm; cbn; auto|]. split; [reflexivity|]. cbn [svars set_last set_order set_rules].
        rewrite F5. split; [exact Hc|]. split; [exists s2; repeat split; [exact El|intro Hx; congruence]|].
        right. exists again, n. split; [reflexivity|]. do 2 eexists. split; [reflexivity|]. split; [exact HR|exact Hr].
      * eapply runs_step in Hr; [|unfold g_try; cbn [resume]; rewrite Er, Et; cbv zeta; rewrite El, Ec; unfold g_fire; cbn [resume]; reflexivity].
        destruct Hr as [Hr|(s1 & tr1 & -> & HR & Hr)]; [now left|]. do 3 right.
        match goal with |- context[?h :: tr1] => exists h, ru end.
        cbn [hbefore hstarted hafter hevent]. split; [reflexivity|]. split; [reflexivity|].
        split; [unfold calm; cbn; auto|]. split; [reflexivity|]. cbn [svars set_last set_cur].
        rewrite F5. split; [exact Hc|]. split; [exists s2; repeat split; exact El|].
        left. split; [reflexivity|]. do 2 eexists. split; [reflexivity|]. split; [exact HR|exact Hr].
      * eapply runs_step in Hr; [|unfold g_try; cbn [resume]; rewrite Er, Et; cbv zeta; rewrite El, Ec; cbn [resume]; reflexivity].
        destruct Hr as [Hr|[-> ->]]; [now left|]. right. left. do 2 eexists. split; [reflexivity|]. cbn.
        unfold calm; cbn. repeat split; auto. right. exists ru. split; [reflexivity|]. now rewrite F5.
    + eapply runs_step in Hr; [|unfold g_try; cbn [resume]; rewrite Er, Et; cbv zeta; rewrite El; cbn [resume]; reflexivity].
      destruct Hr as [Hr|[-> ->]]; [now left|]. right. left. do 2 eexists. split; [reflexivity|]. cbn. repeat split; auto.
  - eapply runs_step in Hr; [|unfold g_try; cbn [resume]; rewrite Er, Et; cbn [resume]; reflexivity].
    destruct Hr as [Hr|(s1 & tr1 & -> & HR & Hr)]; [now left|]. right. right. left.
    match goal with |- context[?h :: tr1] => exists h, ru end.
    cbn [hbefore hafter hstarted hevent]. do 4 (split; [reflexivity|]). split; [reflexivity|]. split; [now apply lhs_test_none|].
    eapply runs_step in Hr; [|reflexivity]. destruct Hr as [[-> ->]|[-> ->]]; [left; auto|right]. eauto.
  - eapply runs_step in Hr; [|unfold g_try; cbn [resume]; rewrite Er, Et; cbn [resume]; reflexivity].
    destruct Hr as [Hr|[-> ->]]; [now left|]. right. left. do 2 eexists. split; [reflexivity|]. cbn. repeat split; auto.
Qed.

(** The state in which rules are chosen. *)
Definition choosing (s : st) : st := set_extra [] (set_cur (scur s) (scur s) s).

Lemma procedural_shape O t0 s tr f : runs rely (procedural O t0) s tr f ->
  (tr = [] /\ f = FCut) \/
  exists h1 s1 tr1, tr = h1 :: tr1 /\ hbefore h1 = s /\ hstarted h1 = [] /\ hevent h1 = Some (pev t0 WConflict) /\ calm h1 /\
    svars (hafter h1) = nobind /\ srules (hafter h1) = srules s /\ sorder (hafter h1) = sorder s /\ sused (hafter h1) = sused s /\
    rely (hafter h1) s1 /\
    ((tr1 = [] /\ f = FCut) \/
     (exists h2 e, tr1 = [h2] /\ hbefore h2 = s1 /\ hstarted h2 = [] /\ hevent h2 = None /\ calm h2 /\ svars (hafter h2) = nobind /\
        f = FRaise e) \/
     (exists h2, hbefore h2 = s1 /\ hstarted h2 = [] /\ hevent h2 = Some (pev t0 WNoRule) /\ calm h2 /\ svars (hafter h2) = nobind /\
        sused (hafter h2) = sused s1 /\ srules (hafter h2) = srules s1 /\
        select O (choosing s1) = Ok None /\
        ((tr1 = [h2] /\ f = FCut) \/
         (exists s2, tr1 = [h2; MkHop s2 [] None s2] /\ rely (hafter h2) s2 /\ f = FDone))) \/
     (exists h2 s2 tr2 r, tr1 = h2 :: tr2 /\ hbefore h2 = s1 /\ hstarted h2 = [] /\ hevent h2 = Some (pev t0 (WSelected r)) /\
        calm h2 /\ svars (hafter h2) = nobind /\ srules (hafter h2) = srules s1 /\
        sused (hafter h2) = sused (use_rule r t0 s1) /\
        select O (choosing s1) = Ok (Some r) /\ rely (hafter h2) s2 /\
        ((tr2 = [] /\ f = FCut) \/
         (exists s3 tr3, tr2 = MkHop s2 [] (Some (pev (t0 + qfiring (sp s)) WUnknown)) s2 :: tr3 /\ rely s2 s3 /\
            runs rely (g_try O r (t0 + qfiring (sp s))) s3 tr3 f)))).
Proof.
  intro Hr. unfold procedural in Hr. eapply runs_step in Hr; [|cbn [resume]; reflexivity].
  destruct Hr as [Hr|(s1 & tr1 & -> & HR & Hr)]; [now left|right].
  do 3 eexists. split; [reflexivity|]. cbn [hbefore hstarted hevent hafter].
  do 3 (split; [reflexivity|]). split; [unfold calm; cbn; auto|]. do 4 (split; [reflexivity|]). split; [exact HR|].
  pose proof HR as (R1 & R2 & R3 & R4 & R5 & R6). cbn in R1, R2, R3, R4, R5, R6.
  destruct (select O (choosing s1)) as [[r|]|e] eqn:Es.
  - eapply runs_step in Hr; [|cbn [resume]; unfold choosing in Es; rewrite Es; cbn [resume]; reflexivity].
    destruct Hr as [Hr|(s2 & tr2 & -> & HR2 & Hr)]; [now left|]. do 3 right.
    do 4 eexists. split; [reflexivity|]. cbn [hbefore hstarted hevent hafter]. do 3 (split; [reflexivity|]).
    split; [unfold calm; cbn; auto|]. cbn. split; [exact R3|]. split; [reflexivity|]. split; [reflexivity|]. split; [reflexivity|].
    split; [exact HR2|]. cbn in Hr. rewrite R1 in Hr.
    eapply runs_step in Hr; [|cbn [resume]; reflexivity].
    destruct Hr as [Hr|(s3 & tr3 & -> & HR3 & Hr)]; [now left|right]. eauto 6.
  - destruct (remove_procedural (sprocs s1)) as [l|] eqn:Ep.
    + eapply runs_step in Hr; [|cbn [resume]; unfold choosing in Es; rewrite Es; cbn; rewrite Ep; cbn [resume]; reflexivity].
      destruct Hr as [Hr|(s2 & tr2 & -> & HR2 & Hr)]; [now left|]. do 2 right. left.
      match goal with |- context[?h :: tr2] => exists h end.
      cbn [hbefore hstarted hevent hafter]. do 3 (split; [reflexivity|]).
      split; [unfold calm; cbn; auto|]. cbn. split; [exact R3|]. do 3 (split; [reflexivity|]).
      eapply runs_step in Hr; [|reflexivity]. destruct Hr as [[-> ->]|[-> ->]]; [left; auto|right]. eauto.
    + eapply runs_step in Hr; [|cbn [resume]; unfold choosing in Es; rewrite Es; cbn; rewrite Ep; cbn [resume]; reflexivity].
      destruct Hr as [Hr|[-> ->]]; [now left|]. right. left. do 2 eexists. split; [reflexivity|]. cbn.
      unfold calm. cbn. repeat split; auto.
  - eapply runs_step in Hr; [|cbn [resume]; unfold choosing in Es; rewrite Es; cbn [resume]; reflexivity].
    destruct Hr as [Hr|[-> ->]]; [now left|]. right. left. do 2 eexists. split; [reflexivity|]. cbn.
    unfold calm. cbn. repeat split; auto.
Qed.

Lemma events_cons h tr e : hevent h = Some e -> events (h :: tr) = e :: events tr.
Proof. intro H. unfold events. cbn. rewrite H. reflexivity. Qed.
Lemma events_none h tr : hevent h = None -> events (h :: tr) = events tr.
Proof. intro H. unfold events. cbn. rewrite H. reflexivity. Qed.

(** ** The events of a cycle *)

Lemma act_runs R O r ru t s tr f : runs R (g_act O r ru t) s tr f ->
  Forall quiet (events tr) /\ forall k, f <> FCont k.
Proof.
  intro Hr. destruct (act_notes O r ru t) as [l Hn].
  destruct (notes_runs _ _ _ _ _ Hr _ Hn) as (rest & _ & _ & Hk & Hq). auto.
Qed.

Theorem procedural_cycle O t0 s tr f : runs rely (procedural O t0) s tr f ->
  exists l rest, cycle t0 (qfiring (sp s)) l /\ l = (events tr ++ rest)%list /\ (f = FDone -> rest = []) /\
    forall k, f <> FCont k.
Proof.
  intro Hr. apply procedural_shape in Hr.
  set (t := (t0 + qfiring (sp s))%Q) in *.
  destruct Hr as [[-> ->]|(h1 & s1 & tr1 & -> & _ & _ & E1 & _ & _ & _ & _ & _ & _ & Hr)].
  { do 2 eexists. split; [apply cycle_none|]. split; [reflexivity|]. split; discriminate. }
  rewrite (events_cons _ _ _ E1).
  destruct Hr as [[-> ->]|[(h2 & e & -> & _ & _ & E2 & _ & _ & ->)|[(h2 & _ & _ & E2 & _ & _ & _ & _ & _ & Hr)|
     (h2 & s2 & tr2 & r & -> & _ & _ & E2 & _ & _ & _ & _ & _ & _ & Hr)]]].
  - do 2 eexists. split; [apply cycle_none|]. split; [reflexivity|]. split; discriminate.
  - rewrite (events_none _ _ E2). do 2 eexists. split; [apply cycle_none|]. split; [reflexivity|]. split; discriminate.
  - exists [pev t0 WConflict; pev t0 WNoRule], []. split; [apply cycle_none|].
    destruct Hr as [[-> ->]|(s2 & -> & _ & ->)]; rewrite (events_cons _ _ _ E2); cbn; (split; [reflexivity|]); split; try discriminate; auto.
  - rewrite (events_cons _ _ _ E2).
    destruct Hr as [[-> ->]|(s3 & tr3 & -> & _ & Hr)].
    { do 2 eexists. split; [apply cycle_stopped|]. split; [reflexivity|]. split; discriminate. }
    fold t in Hr. erewrite events_cons by reflexivity.
    destruct (try_shape _ _ _ _ _ _ _ Hr) as [[-> ->]|[(h & e & -> & _ & _ & E3 & _ & -> & _)|[(h & ru & _ & _ & _ & E3 & _ & _ & Hr3)|
      (h & ru & _ & _ & _ & _ & _ & _ & Hr3)]]].
    + do 2 eexists. split; [apply cycle_stopped|]. split; [reflexivity|]. split; discriminate.
    + rewrite (events_none _ _ E3). do 2 eexists. split; [apply cycle_stopped|]. split; [reflexivity|]. split; discriminate.
    + exists [pev t0 WConflict; pev t0 (WSelected r); pev t WUnknown; pev t (WStopped r)], [].
      split; [apply cycle_stopped|].
      destruct Hr3 as [[-> ->]|(s4 & -> & _ & ->)]; rewrite (events_cons _ _ _ E3); cbn; (split; [reflexivity|]); split; try discriminate; auto.
    + destruct Hr3 as [(E3 & s4 & tr4 & -> & _ & Hr4)|(again & n & E3 & s4 & tr4 & -> & _ & Hr4)].
      * rewrite (events_cons _ _ _ E3). apply act_runs in Hr4. destruct Hr4 as [Hq Hk].
        eexists. exists []. split; [apply (cycle_fired t0 (qfiring (sp s)) r [] (events tr4)); auto|].
        rewrite app_nil_r. split; [reflexivity|]. auto.
      * rewrite (events_cons _ _ _ E3).
        assert (Hm : forall a, Forall quiet a ->
          cycle t0 (qfiring (sp s)) ([pev t0 WConflict; pev t0 (WSelected r); pev t WUnknown] ++ [pev t (WCompiled again n)] ++ pev t (WFired r) :: a)%list).
        { intros a Ha. apply (cycle_fired t0 (qfiring (sp s)) r [pev t (WCompiled again n)] a); [right; exists again, n; reflexivity|exact Ha]. }
        apply fire_shape in Hr4. destruct Hr4 as [[-> ->]|(h' & s5 & tr5 & -> & _ & _ & E5 & _ & _ & _ & _ & Hr5)].
        -- do 2 eexists. split; [apply (Hm []); constructor|]. split; [reflexivity|]. split; discriminate.
        -- rewrite (events_cons _ _ _ E5). apply act_runs in Hr5. destruct Hr5 as [Hq Hk].
           eexists. exists []. split; [apply Hm; exact Hq|]. rewrite app_nil_r. split; [reflexivity|]. auto.
Qed.

(** ** Nothing changes before the rule fires *)

Lemma until_one (P : hop -> Prop) (h : hop) : P h -> until_fired P [h].
Proof. intro H. cbn. split; [exact H|]. destruct (is_fired h); exact I. Qed.
Lemma until_cons (P : hop -> Prop) h tr : P h -> until_fired P tr -> until_fired P (h :: tr).
Proof. intros H1 H2. cbn. split; [exact H1|]. destruct (is_fired h); auto. Qed.

Definition blank_or_tested (tr : list hop) (h : hop) : Prop :=
  svars (hafter h) = nobind \/
  exists r h', In (WSelected r) (map ewhat (events tr)) /\ In h' tr /\ tested_ok r h' /\ svars (hafter h') = svars (hafter h).

Theorem procedural_before_firing O t0 s tr f : runs rely (procedural O t0) s tr f ->
  until_fired (fun h => sw (hafter h) = sw (hbefore h) /\ smods (hafter h) = smods (hbefore h) /\ hstarted h = [] /\
                        blank_or_tested tr h) tr.
Proof.
  intro Hr. apply procedural_shape in Hr.
  destruct Hr as [[-> ->]|(h1 & s1 & tr1 & -> & _ & N1 & E1 & C1 & V1 & _ & _ & _ & Re1 & Hr)]; [exact I|].
  destruct C1 as (C1 & C1' & _ & _).
  apply until_cons; [repeat split; auto; now left|].
  destruct Hr as [[-> ->]|[(h2 & e & -> & _ & N2 & E2 & (C2 & C2' & _) & V2 & ->)|[(h2 & B2 & N2 & E2 & (C2 & C2' & _) & V2 & _ & _ & _ & Hr)|
     (h2 & s2 & tr2 & r & -> & B2 & N2 & E2 & (C2 & C2' & _) & V2 & _ & _ & _ & Re2 & Hr)]]].
  - exact I.
  - apply until_one. repeat split; auto; now left.
  - destruct Hr as [[-> ->]|(s2 & -> & Re2 & ->)].
    + apply until_one. repeat split; auto; now left.
    + apply until_cons; [repeat split; auto; now left|]. apply until_one. repeat split; auto. left. cbn.
      destruct Re2 as (_ & _ & Re2 & _). congruence.
  - apply until_cons; [repeat split; auto; now left|].
    destruct Hr as [[-> ->]|(s3 & tr3 & -> & Re3 & Hr)]; [exact I|].
    assert (Vs2 : svars s2 = nobind) by (destruct Re2 as (_ & _ & Re2 & _); congruence).
    assert (Vs3 : svars s3 = nobind) by (destruct Re3 as (_ & _ & Re3 & _); congruence).
    apply until_cons; [repeat split; auto; now left|].
    match goal with |- context[blank_or_tested ?l] => set (full := l) end.
    assert (Hsel : In (WSelected r) (map ewhat (events full))).
    { unfold full. rewrite (events_cons _ _ _ E1), (events_cons _ _ _ E2). right. now left. }
    destruct (try_shape _ _ _ _ _ _ _ Hr) as [[-> ->]|[(h & e & -> & B3 & N3 & E3 & (C3 & C3' & _) & -> & Hv)|[(h & ru & B3 & A3 & N3 & E3 & _ & _ & Hr3)|
      (h & ru & B3 & N3 & (C3 & C3' & _) & G3 & Hc & _ & Hr3)]]].
    + exact I.
    + apply until_one. repeat split; auto. destruct Hv as [Hv|(ru & G & Hc)]; [left; congruence|].
      right. exists r, h. split; [exact Hsel|]. split; [unfold full; cbn; auto|]. split; [|reflexivity].
      exists ru. rewrite B3, <- Vs3. auto.
    + assert (Hh : svars (hafter h) = nobind) by congruence.
      assert (S3 : sw (hafter h) = sw (hbefore h) /\ smods (hafter h) = smods (hbefore h)) by (split; congruence).
      destruct Hr3 as [[-> ->]|(s4 & -> & Re4 & ->)].
      * apply until_one. repeat split; try tauto. now left.
      * apply until_cons; [repeat split; try tauto; now left|]. apply until_one. repeat split; auto. left.
        cbn. destruct Re4 as (_ & _ & Re4 & _). congruence.
    + assert (Ht : tested_ok r h). { exists ru. rewrite B3, <- Vs3. auto. }
      destruct Hr3 as [(E3 & s4 & tr4 & -> & Re4 & Hr4)|(again & n & E3 & s4 & tr4 & -> & Re4 & Hr4)].
      * cbn [until_fired]. assert (Hf : is_fired h = true) by (unfold is_fired; now rewrite E3). rewrite Hf. split; [|exact I].
        repeat split; auto. right. exists r, h. repeat split; auto. unfold full. cbn. auto.
      * apply until_cons.
        { repeat split; auto. right. exists r, h. repeat split; auto. unfold full. cbn. auto. }
        apply fire_shape in Hr4. destruct Hr4 as [[-> ->]|(h' & s5 & tr5 & -> & B5 & N5 & E5 & (C5 & C5' & _) & V5 & _ & Hr5)]; [exact I|].
        cbn [until_fired]. assert (Hf : is_fired h' = true) by (unfold is_fired; now rewrite E5). rewrite Hf. split; [|exact I].
        repeat split; auto. right. exists r, h. repeat split; auto; [unfold full; cbn; auto|].
        destruct Re4 as (_ & _ & Re4 & _). congruence.
Qed.

(** ** Tests at firing time *)

Lemma quiet_not_fired tr h e r : Forall quiet (events tr) -> In h tr -> hevent h = Some e -> ewhat e <> WFired r /\ ewhat e <> WStopped r.
Proof.
  intros Hq Hin He. rewrite Forall_forall in Hq.
  assert (Hx : quiet e). { apply Hq. unfold events. apply in_flat_map. exists h. split; [exact Hin|]. rewrite He. now left. }
  destruct Hx as [Hx|[y Hx]]; rewrite Hx; split; discriminate.
Qed.

Theorem procedural_fires_tested O t0 s tr f h e r : runs rely (procedural O t0) s tr f ->
  In h tr -> hevent h = Some e ->
  (ewhat e = WStopped r -> hafter h = hbefore h /\ ~ rule_matches (hbefore h) r) /\
  (ewhat e = WFired r -> exists h', In h' tr /\ tested_ok r h' /\ svars (hafter h) = svars (hafter h') /\
     (h' = h \/ exists again n, hevent h' = Some (MkEv (etime e) PROCEDURAL (WCompiled again n)))).
Proof.
  intros Hr Hin He. apply procedural_shape in Hr.
  destruct Hr as [[-> ->]|(h1 & s1 & tr1 & -> & _ & N1 & E1 & C1 & V1 & _ & _ & _ & Re1 & Hr)]; [destruct Hin|].
  destruct Hin as [<-|Hin]; [rewrite E1 in He; injection He as <-; split; discriminate|].
  destruct Hr as [[-> ->]|[(h2 & e2 & -> & _ & N2 & E2 & (C2 & C2' & _) & V2 & ->)|[(h2 & B2 & N2 & E2 & (C2 & C2' & _) & V2 & _ & _ & _ & Hr)|
     (h2 & s2 & tr2 & r2 & -> & B2 & N2 & E2 & (C2 & C2' & _) & V2 & _ & _ & _ & Re2 & Hr)]]].
  - destruct Hin.
  - destruct Hin as [<-|[]]. congruence.
  - destruct Hr as [[-> ->]|(s2 & -> & Re2 & ->)].
    + destruct Hin as [<-|[]]. rewrite E2 in He. injection He as <-. split; discriminate.
    + destruct Hin as [<-|[<-|[]]]; [rewrite E2 in He; injection He as <-; split; discriminate|discriminate].
  - destruct Hin as [<-|Hin]; [rewrite E2 in He; injection He as <-; split; discriminate|].
    destruct Hr as [[-> ->]|(s3 & tr3 & -> & Re3 & Hr)]; [destruct Hin|].
    assert (Vs2 : svars s2 = nobind) by (destruct Re2 as (_ & _ & Re2 & _); congruence).
    assert (Vs3 : svars s3 = nobind) by (destruct Re3 as (_ & _ & Re3 & _); congruence).
    destruct Hin as [<-|Hin]; [cbn in He; injection He as <-; split; discriminate|].
    destruct (try_shape _ _ _ _ _ _ _ Hr) as [[-> ->]|[(h3 & e3 & -> & B3 & N3 & E3 & (C3 & C3' & _) & -> & Hv)|[(h3 & ru & B3 & A3 & N3 & E3 & G3 & Hno & Hr3)|
      (h3 & ru & B3 & N3 & (C3 & C3' & _) & G3 & Hc & _ & Hr3)]]].
    + destruct Hin.
    + destruct Hin as [<-|[]]. congruence.
    + assert (Hh : h = h3 -> (ewhat e = WStopped r -> hafter h = hbefore h /\ ~ rule_matches (hbefore h) r) /\ (ewhat e <> WFired r)).
      { intros ->. rewrite E3 in He. injection He as <-. split; [|discriminate]. cbn. intro Hw. injection Hw as <-.
        split; [congruence|]. intros (ru' & b & G & Hb). rewrite B3, G3 in G. injection G as <-. rewrite B3, <- Vs3 in Hb. exact (Hno _ Hb). }
      destruct Hr3 as [[-> ->]|(s4 & -> & Re4 & ->)].
      * destruct Hin as [<-|[]]. destruct (Hh eq_refl) as [H1 H2]. split; [exact H1|]. intro Hx. contradiction.
      * destruct Hin as [<-|[<-|[]]]; [|discriminate]. destruct (Hh eq_refl) as [H1 H2]. split; [exact H1|]. intro Hx. contradiction.
    + assert (Ht : tested_ok r2 h3). { exists ru. rewrite B3, <- Vs3. auto. }
      destruct Hr3 as [(E3 & s4 & tr4 & -> & Re4 & Hr4)|(again & n & E3 & s4 & tr4 & -> & Re4 & Hr4)].
      * destruct Hin as [<-|Hin].
        -- rewrite E3 in He. injection He as <-. split; [discriminate|]. cbn. intro Hw. injection Hw as <-.
           exists h3. split; [cbn; auto|]. auto.
        -- apply act_runs in Hr4. destruct Hr4 as [Hq _]. destruct (quiet_not_fired _ _ _ r Hq Hin He). split; intro; contradiction.
      * destruct Hin as [<-|Hin]; [rewrite E3 in He; injection He as <-; split; discriminate|].
        apply fire_shape in Hr4. destruct Hr4 as [[-> ->]|(h' & s5 & tr5 & -> & B5 & N5 & E5 & _ & V5 & _ & Re5 & Hr5)]; [destruct Hin|].
        destruct Hin as [<-|Hin].
        -- rewrite E5 in He. injection He as <-. split; [discriminate|]. cbn. intro Hw. injection Hw as <-.
           exists h3. split; [cbn; auto|]. split; [exact Ht|]. split; [destruct Re4 as (_ & _ & Re4 & _); congruence|].
           right. eauto.
        -- apply act_runs in Hr5. destruct Hr5 as [Hq _]. destruct (quiet_not_fired _ _ _ r Hq Hin He). split; intro; contradiction.
Qed.
