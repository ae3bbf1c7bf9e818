(** Actions leave the private state of the procedural process alone; utility learning. *)
From Coq Require Import Permutation Lqa Qabs.
From Verif Require Import Base BaseFacts Chunks DecMem Buffers RoundFacts Productions ProdSpec ProdFacts ActFacts HarvestFacts CycleFacts.
Local Open Scope string_scope.

(** ** Guarantee *)

(** Every step of [g], and of the generators it hands over to, respects [rely]. *)
Fixpoint keeps (g : gen) : Prop :=
  match g with
  | GRet => True
  | GRaise _ => True
  | GYield e k => keeps k
  | GCont k => keeps k
  | GNote n k => keeps k
  | GAct f k => (forall s, rely s (f s)) /\ keeps k
  | GGet k => forall s, keeps (k s)
  end.

Lemma rely_refl s : rely s s.
Proof. repeat split. Qed.
Lemma rely_trans s1 s2 s3 : rely s1 s2 -> rely s2 s3 -> rely s1 s3.
Proof.
  intros (A1 & A2 & A3 & A4 & A5 & A6) (B1 & B2 & B3 & B4 & B5 & B6). unfold rely. repeat split; congruence.
Qed.

Lemma keeps_gseq g : forall k, keeps g -> keeps k -> keeps (gseq g k).
Proof.
  induction g as [|e|e g IH|g IH|n g IH|f g IH|h IH]; cbn [gseq keeps]; intros k Hg Hk; auto.
  destruct Hg. split; auto.
Qed.
Lemma keeps_gcall {A} (f : st -> world * res A) k : (forall a, keeps (k a)) -> keeps (gcall f k).
Proof. intros H s. destruct (f s) as [w [a|e]]; cbn; repeat split; auto. Qed.
Lemma keeps_record f k : keeps k -> keeps (g_record f k).
Proof. intros H s. destruct (f s); cbn; repeat split; auto. Qed.

Lemma rely_attrs i l s : rely s (set_attrs i l s).
Proof. unfold set_attrs. destruct (nth_error (smods s) i); repeat split. Qed.
Lemma rely_focus i p s : rely s (set_focus i p s).
Proof. unfold set_focus. destruct (nth_error (smods s) i); repeat split. Qed.
Lemma rely_attend i p s : rely s (set_attend i p s).
Proof. unfold set_attend. destruct (nth_error (smods s) i); repeat split. Qed.
Lemma rely_mvt i p s : rely s (set_mvt i p s).
Proof. unfold set_mvt. destruct (nth_error (smods s) i); repeat split. Qed.
Lemma rely_mlast i p s : rely s (set_mlast i p s).
Proof. unfold set_mlast. destruct (nth_error (smods s) i); repeat split. Qed.

Ltac keeps_tac :=
  repeat (cbn [keeps]; cbv beta zeta;
    first [ apply keeps_gcall; intro | apply keeps_record | apply keeps_gseq | exact I
          | apply rely_attrs | apply rely_focus | apply rely_attend | apply rely_mvt | apply rely_mlast
          | match goal with |- _ /\ _ => split end
          | match goal with |- forall _ : st, _ => intro end
          | match goal with |- rely _ (set_state _ _ _) => apply rely_attrs end
          | match goal with |- rely _ (set_keys _ _) => unfold rely; repeat split; reflexivity end
          | match goal with |- rely _ (set_extra _ _) => unfold rely; repeat split; reflexivity end
          | match goal with |- rely _ ((if ?x then _ else _) _) => destruct x; unfold rely; repeat split; reflexivity end
          | match goal with |- keeps (match ?x with _ => _ end) => destruct x end
          | match goal with |- keeps (match ?x with _ => _ end _) => destruct x end
          | match goal with |- keeps (if ?x then _ else _) => destruct x end
          | reflexivity ]).

Theorem start_keeps O m name i c bs t : keeps (start O m name i c bs t).
Proof.
  destruct m; unfold start, g_extra, g_modify, g_execute, g_clear, g_overwrite, g_modreq, g_request, g_setgoal,
    g_find, g_visual, g_shift, g_viscont, g_encode, g_motor, g_motorcont, g_retrieve, g_clear; keeps_tac.
Qed.

Theorem autosearch_keeps O name i l t : keeps (g_autosearch O name i l t).
Proof. unfold g_autosearch. keeps_tac. Qed.
Theorem autobuffer_keeps O name i l t : keeps (g_autobuffer O name i l t).
Proof. unfold g_autobuffer. keeps_tac. Qed.

Lemma rely_harvest names t : forall s, rely s (harvest names t s).
Proof.
  induction names as [|n names IH]; intro s; cbn [harvest]; [apply rely_refl|].
  eapply rely_trans; [|apply IH]. destruct (dget (snames s) n); repeat split.
Qed.

Lemma actions_keeps O t : forall l temp, keeps (actions O t temp l).
Proof.
  induction l as [|[key c] l IH]; intro temp; cbn [actions].
  - intro s. destruct (qstrict (sp s)); cbn; auto. split; [apply rely_harvest|exact I].
  - destruct key as [|code name]; [exact I|]. destruct (rhs_meth code) as [m|]; [|exact I].
    intro s. destruct (dget (snames s) name) as [i|]; [|exact I]. cbn [keeps].
    split; [apply rely_attrs|]. destruct (interruptible m).
    + cbn [keeps]. split; [repeat split|apply IH].
    + apply keeps_gseq; [apply start_keeps|apply IH].
Qed.

Lemma act_keeps O r ru t : keeps (g_act O r ru t).
Proof.
  apply keeps_gseq.
  - intro s. destruct (ordered_rhs (rrhs ru)); [apply actions_keeps|exact I].
  - cbn. split; [|exact I]. intro s. destruct (slast s) as [l|]; [|repeat split].
    destruct (negb (String.eqb l "") && negb (String.eqb l r)); repeat split.
Qed.

Lemma keeps_resume g : forall s s' ns o, keeps g -> resume g s = (s', ns, o) ->
  rely s s' /\ match o with OYield _ k => keeps k | OCont k => keeps k | _ => True end.
Proof.
  induction g as [|e|e g IH|g IH|n g IH|f g IH|h IH]; cbn [resume keeps]; intros s s' ns o Hg H.
  1-4: inversion H; subst; split; auto; apply rely_refl.
  - destruct (resume g s) as [[s1 ns1] o1] eqn:E. inversion H; subst. eauto.
  - destruct Hg as [Hf Hg]. destruct (IH _ _ _ _ Hg H) as [H1 H2]. split; [|exact H2].
    eapply rely_trans; [apply Hf|exact H1].
  - eapply IH; [apply Hg|exact H].
Qed.

Theorem keeps_runs R g s tr f : runs R g s tr f -> keeps g -> Forall (fun h => rely (hbefore h) (hafter h)) tr.
Proof.
  induction 1 as [g s|g s s' ns H|g s s' ns e H|g s s' ns k H|g s s' ns e k s'' tr f H Hrel Hr IH]; intro Hk.
  - constructor.
  - constructor; [|constructor]. now apply (keeps_resume _ _ _ _ _ Hk H).
  - constructor; [|constructor]. now apply (keeps_resume _ _ _ _ _ Hk H).
  - constructor; [|constructor]. now apply (keeps_resume _ _ _ _ _ Hk H).
  - destruct (keeps_resume _ _ _ _ _ Hk H) as [H1 H2]. constructor; auto.
Qed.

Theorem start_runs_keep (R : st -> st -> Prop) O m name i c bs t s tr f : runs R (start O m name i c bs t) s tr f ->
  Forall (fun h => rely (hbefore h) (hafter h)) tr.
Proof. intro H. eapply keeps_runs; [exact H|apply start_keeps]. Qed.

(** ** Utility learning *)

Lemma round4_rounded x : rounded x (round4 x).
Proof.
  split; [exists (roundtime x); reflexivity|].
  pose proof (roundtime_close x) as H. unfold seconds in H. apply Qabs_Qle_condition in H.
  unfold round4. destruct H. split; lra.
Qed.

Lemma fold_learns alpha reward now ts : forall u,
  learns alpha reward now u ts (fold_left (fun u t => learn alpha reward (now - t) u) ts u).
Proof.
  induction ts as [|t ts IH]; intro u; cbn [fold_left]; [constructor|].
  econstructor; [|apply IH]. unfold learn. apply round4_rounded.
Qed.

Definition uses (used : dict (list Q)) (r : string) : list Q := match dget used r with Some l => l | None => [] end.

(** What learning does to one rule. *)
Definition updated (alpha reward now : Q) (ts : list Q) (a b : rule) : Prop :=
  rlhs b = rlhs a /\ rrhs b = rrhs a /\ rreward b = rreward a /\ learns alpha reward now (rutil a) ts (rutil b).

Lemma modify_ok alpha reward now used : forall rules rules', NoDup (dkeys used) ->
  modify_utilities now reward alpha used rules = Ok rules' ->
  dkeys rules' = dkeys rules /\
  forall r a, dget rules r = Some a -> exists b, dget rules' r = Some b /\ updated alpha reward now (uses used r) a b.
Proof.
  unfold modify_utilities.
  assert (Herr : forall l e, fold_left (fun acc p =>
    rs <- acc ;;
    match snd p with
    | [] => Ok rs
    | ts => match dget rs (fst p) with
            | None => Err EType
            | Some r => Ok (dset rs (fst p)
                (set_util r (fold_left (fun u t => learn alpha reward (now - t) u) ts (rutil r))))
            end
    end) l (@Err (dict rule) e) = Err e) by (intro l; induction l as [|a0 l IHl]; intro e; cbn [fold_left rbind]; [reflexivity|apply IHl]).
  induction used as [|[n ts] used IH]; intros rules rules' nd H.
  - cbn in H. inversion H; subst. split; [reflexivity|]. intros r a Ha. exists a. split; [exact Ha|]. repeat split. constructor.
  - cbn [dkeys map fst] in nd. inversion nd as [|? ? Hn nd']; subst. cbn [fold_left rbind fst snd] in H.
    assert (Hu : uses used n = []).
    { unfold uses. destruct (dget used n) eqn:E; [|reflexivity]. apply dget_Some_key in E. contradiction. }
    destruct ts as [|t0 ts].
    + destruct (IH _ _ nd' H) as [Hk Hall]. split; [exact Hk|]. intros r a Ha.
      destruct (Hall r a Ha) as (b & Hb & Hup). exists b. split; [exact Hb|].
      replace (uses ((n, []) :: used) r) with (uses used r); [exact Hup|].
      unfold uses at 2. cbn [dget]. destruct (String.eqb_spec n r) as [<-|]; [exact Hu|reflexivity].
    + destruct (dget rules n) as [r0|] eqn:En.
      2:{ rewrite Herr in H. discriminate. }
      destruct (IH _ _ nd' H) as [Hk Hall]. split.
      { rewrite Hk. clear -En. induction rules as [|[k a] rules IHr]; [discriminate|]. cbn in *.
        destruct (String.eqb_spec k n) as [->|]; [reflexivity|]. cbn. unfold dkeys in IHr. now rewrite IHr. }
      intros r a Ha. destruct (String.eqb_spec n r) as [<-|Hne].
      * rewrite En in Ha. inversion Ha; subst a.
        destruct (Hall n _ (dget_dset_eq _ _ _)) as (b & Hb & (U1 & U2 & U3 & U4)). exists b. split; [exact Hb|].
        unfold uses at 1. cbn [dget]. rewrite String.eqb_refl.
        rewrite Hu in U4. inversion U4 as [u Hx Hy|]; subst. cbn in U1, U2, U3, Hy.
        repeat split; auto. match goal with E : fold_left _ _ _ = rutil b |- _ => rewrite <- E end. apply (fold_learns alpha reward now (t0 :: ts)).
      * assert (Ha' : dget (dset rules n (set_util r0 (fold_left (fun u t => learn alpha reward (now - t) u) (t0 :: ts) (rutil r0)))) r = Some a).
        { rewrite dget_dset_neq by exact Hne. exact Ha. }
        destruct (Hall r a Ha') as (b & Hb & Hup). exists b. split; [exact Hb|].
        replace (uses ((n, t0 :: ts) :: used) r) with (uses used r); [exact Hup|].
        unfold uses at 2. cbn [dget]. destruct (String.eqb_spec n r); [contradiction|reflexivity].
Qed.

(** One step before rounding stays between the utility and the reduced reward. *)
Lemma learn_between alpha target u : 0 <= alpha <= 1 ->
  let v := u + alpha * (target - u) in (u <= v <= target) \/ (target <= v <= u).
Proof. intros [H0 H1] v. unfold v. destruct (Qlt_le_dec target u); [right|left]; split; nra. Qed.

(** ** Learning in the procedural process *)

(** What happens to the list of uses and to the rules when rule [r], with the reward of [ru], is
    about to fire at time [now]. *)
Definition after_reward (now : Q) (r : string) (h : hop) : Prop :=
  exists ru, dget (srules (hbefore h)) r = Some ru /\
  match (if qlearn (sp (hbefore h)) then rreward ru else None) with
  | None => srules (hafter h) = srules (hbefore h) /\ sused (hafter h) = sused (hbefore h)
  | Some reward =>
      sused (hafter h) = [] /\ dkeys (srules (hafter h)) = dkeys (srules (hbefore h)) /\
      forall n a, dget (srules (hbefore h)) n = Some a ->
        exists b, dget (srules (hafter h)) n = Some b /\
          updated (qalpha (sp (hbefore h))) reward now (uses (sused (hbefore h)) n) a b
  end.

Lemma use_rule_NoDup r t s : NoDup (dkeys (sused s)) -> NoDup (dkeys (sused (use_rule r t s))).
Proof. intro H. cbn. now apply dset_NoDup. Qed.

Theorem procedural_learning O t0 s tr f h e r : runs rely (procedural O t0) s tr f ->
  qcompile (sp s) = false -> NoDup (dkeys (sused s)) -> In h tr -> hevent h = Some e -> ewhat e = WFired r ->
  after_reward (t0 + qfiring (sp s)) r h.
Proof.
  intros Hr Hq nd Hin He Hw. pose proof Hr as Hr0. apply procedural_shape in Hr.
  destruct Hr as [[-> ->]|(h1 & s1 & tr1 & -> & B1 & N1 & E1 & C1 & V1 & _ & _ & U1 & Re1 & Hr)]; [destruct Hin|].
  assert (P1 : sp s1 = sp s). { destruct C1 as (_ & _ & _ & C1), Re1 as (Re1 & _). congruence. }
  assert (U1' : sused s1 = sused s). { destruct Re1 as (_ & _ & _ & _ & _ & Re1). congruence. }
  destruct Hin as [<-|Hin]; [rewrite E1 in He; injection He as <-; discriminate|].
  destruct Hr as [[-> ->]|[(h2 & e2 & -> & _ & N2 & E2 & C2 & V2 & ->)|[(h2 & B2 & N2 & E2 & C2 & V2 & _ & _ & _ & Hr)|
     (h2 & s2 & tr2 & r2 & -> & B2 & N2 & E2 & C2 & V2 & _ & U2 & _ & Re2 & Hr)]]].
  - destruct Hin.
  - destruct Hin as [<-|[]]. congruence.
  - destruct Hr as [[-> ->]|(s2 & -> & Re2 & ->)].
    + destruct Hin as [<-|[]]. rewrite E2 in He. injection He as <-. discriminate.
    + destruct Hin as [<-|[<-|[]]]; [rewrite E2 in He; injection He as <-; discriminate|discriminate].
  - destruct Hin as [<-|Hin]; [rewrite E2 in He; injection He as <-; discriminate|].
    destruct Hr as [[-> ->]|(s3 & tr3 & -> & Re3 & Hr)]; [destruct Hin|].
    assert (P2 : sp s2 = sp s). { destruct C2 as (_ & _ & _ & C2), Re2 as (Re2 & _). congruence. }
    assert (P3 : sp s3 = sp s). { destruct Re3 as (Re3 & _). congruence. }
    assert (nd3 : NoDup (dkeys (sused s3))).
    { destruct Re3 as (_ & _ & _ & _ & _ & Re3), Re2 as (_ & _ & _ & _ & _ & Re2). rewrite Re3, Re2, U2.
      apply use_rule_NoDup. now rewrite U1'. }
    destruct Hin as [<-|Hin]; [cbn in He; injection He as <-; discriminate|].
    destruct (try_shape _ _ _ _ _ _ _ Hr) as [[-> ->]|[(h3 & e3 & -> & B3 & N3 & E3 & _ & -> & Hv)|[(h3 & ru & B3 & A3 & N3 & E3 & G3 & Hno & Hr3)|
      (h3 & ru & B3 & N3 & C3 & G3 & Hc & (s5 & Hl & Us & Rs) & Hr3)]]].
    + destruct Hin.
    + destruct Hin as [<-|[]]. congruence.
    + destruct Hr3 as [[-> ->]|(s4 & -> & Re4 & ->)].
      * destruct Hin as [<-|[]]. rewrite E3 in He. injection He as <-. discriminate.
      * destruct Hin as [<-|[<-|[]]]; [rewrite E3 in He; injection He as <-; discriminate|discriminate].
    + assert (P5 : sp s5 = sp s). { apply learned_fields in Hl. cbn in Hl. destruct Hl as (_ & _ & _ & Hl & _). congruence. }
      assert (Hcn : compile_now O s5 = Ok None) by (unfold compile_now; now rewrite P5, Hq).
      specialize (Rs Hcn).
      destruct Hr3 as [(E3 & s4 & tr4 & -> & Re4 & Hr4)|(again & n & E3 & s4 & tr4 & -> & Re4 & Hr4)].
      * destruct Hin as [<-|Hin].
        2:{ apply act_runs in Hr4. destruct Hr4 as [Hqq _]. destruct (quiet_not_fired _ _ _ r Hqq Hin He). contradiction. }
        rewrite E3 in He. injection He as <-. cbn in Hw. injection Hw as <-.
        exists ru. rewrite B3, P3. split; [exact G3|].
        unfold learned in Hl. cbn [sp set_vars srules sused] in Hl. rewrite P3 in Hl.
        destruct (rreward ru) as [reward|].
        -- destruct (qlearn (sp s)).
           ++ destruct (modify_utilities _ _ _ _ _) as [rs|] eqn:Em; cbn [rbind] in Hl; [|discriminate].
              inversion Hl; subst s5. cbn in Us, Rs. rewrite Us, Rs. split; [reflexivity|].
              eapply modify_ok in Em; [|exact nd3]. exact Em.
           ++ inversion Hl; subst s5. cbn in Us, Rs. auto.
        -- inversion Hl; subst s5. cbn in Us, Rs. destruct (qlearn (sp s)); auto.
      * (* no rule is compiled *)
        exfalso. unfold g_try in Hr. eapply runs_step in Hr.
        2:{ cbn [resume]. rewrite G3. apply lhs_test_iff in Hc. rewrite Hc. cbv zeta. rewrite Hl, Hcn. unfold g_fire. cbn [resume]. reflexivity. }
        destruct Hr as [[Hr _]|(s6 & tr6 & Hr & _)]; [discriminate|]. injection Hr as Hr _. rewrite Hr in E3. discriminate.
Qed.

(** Uses are recorded when a rule is selected. *)
Theorem procedural_uses O t0 s tr f h e : runs rely (procedural O t0) s tr f -> In h tr -> hevent h = Some e ->
  match ewhat e with
  | WSelected r => forall n, uses (sused (hafter h)) n = (uses (sused (hbefore h)) n ++ if String.eqb n r then [t0] else [])%list
  | WFired _ | WCompiled _ _ => True
  | _ => sused (hafter h) = sused (hbefore h)
  end.
Proof.
  intros Hr Hin He. apply procedural_shape in Hr.
  destruct Hr as [[-> ->]|(h1 & s1 & tr1 & -> & B1 & N1 & E1 & C1 & V1 & _ & _ & U1 & Re1 & Hr)]; [destruct Hin|].
  destruct Hin as [<-|Hin]; [rewrite E1 in He; injection He as <-; cbn; congruence|].
  assert (Hact : forall r0 ru0 t s0 tr0, runs rely (g_act O r0 ru0 t) s0 tr0 f -> In h tr0 ->
    match ewhat e with
    | WSelected r => forall n, uses (sused (hafter h)) n = (uses (sused (hbefore h)) n ++ if String.eqb n r then [t0] else [])%list
    | WFired _ | WCompiled _ _ => True
    | _ => sused (hafter h) = sused (hbefore h)
    end).
  { intros r0 ru0 t s0 tr0 Hr0 Hin0. pose proof (keeps_runs _ _ _ _ _ Hr0 (act_keeps O r0 ru0 t)) as Hf.
    rewrite Forall_forall in Hf. destruct (Hf _ Hin0) as (_ & _ & _ & _ & _ & Hu).
    apply act_runs in Hr0. destruct Hr0 as [Hqq _]. rewrite Forall_forall in Hqq.
    assert (Hx : quiet e). { apply Hqq. unfold events. apply in_flat_map. exists h. split; [exact Hin0|]. rewrite He. now left. }
    destruct Hx as [Hx|[y Hx]]; rewrite Hx; exact Hu. }
  destruct Hr as [[-> ->]|[(h2 & e2 & -> & _ & N2 & E2 & C2 & V2 & ->)|[(h2 & B2 & N2 & E2 & C2 & V2 & U2 & _ & _ & Hr)|
     (h2 & s2 & tr2 & r2 & -> & B2 & N2 & E2 & C2 & V2 & _ & U2 & _ & Re2 & Hr)]]].
  - destruct Hin.
  - destruct Hin as [<-|[]]. congruence.
  - destruct Hr as [[-> ->]|(s2 & -> & Re2 & ->)].
    + destruct Hin as [<-|[]]. rewrite E2 in He. injection He as <-. cbn. congruence.
    + destruct Hin as [<-|[<-|[]]]; [rewrite E2 in He; injection He as <-; cbn; congruence|discriminate].
  - destruct Hin as [<-|Hin].
    { rewrite E2 in He; injection He as <-. cbn. intro n. rewrite U2, B2. unfold use_rule, uses. cbn [sused set_used].
      rewrite dget_dset. rewrite (String.eqb_sym n r2). destruct (String.eqb_spec r2 n) as [->|].
      - destruct (dget (sused s1) n); reflexivity.
      - now rewrite app_nil_r. }
    destruct Hr as [[-> ->]|(s3 & tr3 & -> & Re3 & Hr)]; [destruct Hin|].
    destruct Hin as [<-|Hin]; [cbn in He; injection He as <-; reflexivity|].
    destruct (try_shape _ _ _ _ _ _ _ Hr) as [[-> ->]|[(h3 & e3 & -> & B3 & N3 & E3 & _ & -> & Hv)|[(h3 & ru & B3 & A3 & N3 & E3 & G3 & Hno & Hr3)|
      (h3 & ru & B3 & N3 & C3 & G3 & Hc & (s5 & Hl & Us & Rs) & Hr3)]]].
    + destruct Hin.
    + destruct Hin as [<-|[]]. congruence.
    + destruct Hr3 as [[-> ->]|(s4 & -> & Re4 & ->)].
      * destruct Hin as [<-|[]]. rewrite E3 in He. injection He as <-. cbn. congruence.
      * destruct Hin as [<-|[<-|[]]]; [rewrite E3 in He; injection He as <-; cbn; congruence|discriminate].
    + destruct Hr3 as [(E3 & s4 & tr4 & -> & Re4 & Hr4)|(again & n & E3 & s4 & tr4 & -> & Re4 & Hr4)].
      * destruct Hin as [<-|Hin]; [rewrite E3 in He; injection He as <-; exact I|]. eapply Hact; eauto.
      * destruct Hin as [<-|Hin]; [rewrite E3 in He; injection He as <-; exact I|].
        apply fire_shape in Hr4. destruct Hr4 as [[-> ->]|(h' & s6 & tr6 & -> & B6 & N6 & E6 & _ & V6 & _ & Re6 & Hr6)]; [destruct Hin|].
        destruct Hin as [<-|Hin]; [rewrite E6 in He; injection He as <-; exact I|]. eapply Hact; eauto.
Qed.

Lemma learns_unused alpha reward now u u' : learns alpha reward now u [] u' -> u' = u.
Proof. intro H. now inversion H. Qed.
Lemma learns_between alpha reward now u t ts u' : 0 <= alpha <= 1 -> learns alpha reward now u (t :: ts) u' ->
  exists x v, rounded x v /\ learns alpha reward now v ts u' /\
    ((u <= x <= reward - (now - t)) \/ (reward - (now - t) <= x <= u)).
Proof.
  intros Ha H. inversion H as [|? ? ? v ? Hv Hl]; subst. eexists _, v. split; [exact Hv|]. split; [exact Hl|].
  now apply learn_between.
Qed.

(** ** Harvesting after the test *)

Lemma harvest_exact O lhs rhs t s' s tr :
  conds_hold s' lhs nobind (svars s) -> qstrict (sp s) = true ->
  (forall x, In x (lhs_vars lhs) -> dget (snames s) x = None) ->
  (forall x, dget (snames s) (String "=" x) = None) ->
  runs rely (g_update O rhs t) s tr FDone ->
  exists tr' h l, tr = (tr' ++ [h])%list /\ Forall quiet_hop tr' /\
    clears (sprocs (hafter h)) = (clears (sprocs (hbefore h)) ++ l)%list /\ NoDup l /\
    forall n, In n l <-> dget (snames s) n <> None /\ tested lhs n /\ ~ mentioned rhs n.
Proof.
  intros Hc Hs Hv Hn Hr. destruct (conds_bound _ _ _ _ Hc) as (C1 & C2 & C3).
  apply update_queues in Hr; [|apply C1; constructor|exact Hn].
  destruct Hr as (tr' & h & l & E & Hq & Hl & nd & Hi). exists tr', h, l. repeat (split; [assumption|]).
  intro n. rewrite Hi. split.
  - intros (_ & H1 & H2 & H3). repeat split; auto. apply C3 in H2. destruct H2 as [[]|[H2|H2]]; [exact H2|].
    exfalso. apply H1. now apply Hv.
  - intros (H1 & H2 & H3). repeat split; auto.
Qed.

Lemma harvest_off O lhs rhs t s' s tr :
  conds_hold s' lhs nobind (svars s) -> qstrict (sp s) = false ->
  (forall x, dget (snames s) (String "=" x) = None) ->
  runs rely (g_update O rhs t) s tr FDone -> Forall quiet_hop tr.
Proof.
  intros Hc Hs Hn Hr. destruct (conds_bound _ _ _ _ Hc) as (C1 & C2 & C3).
  apply update_queues in Hr; [|apply C1; constructor|exact Hn].
  destruct Hr as (tr' & h & l & -> & Hq & Hl & nd & Hi). apply Forall_app. split; [exact Hq|]. constructor; [|constructor].
  destruct l as [|n l]; [now rewrite app_nil_r in Hl|].
  destruct (proj1 (Hi n)) as (H & _); [now left|]. congruence.
Qed.
