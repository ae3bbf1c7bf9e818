(** Conflict resolution inside the procedural process; running a generator undisturbed. *)
From Coq Require Import Permutation Lqa.
From Verif Require Import Base BaseFacts Chunks DecMem Buffers Productions ProdSpec ProdFacts ActFacts HarvestFacts CycleFacts LearnFacts.
Local Open Scope string_scope.

(** Matching looks at buffers, modules and rules only. *)
Lemma conds_choosing s lhs b b' : conds_hold (choosing s) lhs b b' <-> conds_hold s lhs b b'.
Proof.
  split; induction 1 as [b|k c l b b1 b2 Hc Hl IH]; try constructor.
  - econstructor; [|exact IH]. inversion Hc; subst; econstructor; eauto.
  - econstructor; [|exact IH]. inversion Hc; subst; econstructor; eauto.
Qed.
Lemma matches_choosing s r : rule_matches (choosing s) r <-> rule_matches s r.
Proof.
  unfold rule_matches. change (srules (choosing s)) with (srules s).
  split; intros (ru & b & H1 & H2); exists ru, b; (split; [exact H1|]); now apply conds_choosing.
Qed.

(** The step that selects a rule, or finds none. *)
Lemma procedural_selection O t0 s tr f h e : runs rely (procedural O t0) s tr f -> In h tr -> hevent h = Some e ->
  (forall r, ewhat e = WSelected r -> select O (choosing (hbefore h)) = Ok (Some r) /\ svars (hbefore h) = nobind /\
     sp (hbefore h) = sp s /\ srules (hbefore h) = srules s /\ sorder (hbefore h) = sorder s) /\
  (ewhat e = WNoRule -> select O (choosing (hbefore h)) = Ok None /\ svars (hbefore h) = nobind /\
     sp (hbefore h) = sp s /\ srules (hbefore h) = srules s /\ sorder (hbefore h) = sorder s).
Proof.
  intros Hr Hin He. apply procedural_shape in Hr.
  destruct Hr as [[-> ->]|(h1 & s1 & tr1 & -> & B1 & N1 & E1 & C1 & V1 & Q1 & O1 & _ & Re1 & Hr)]; [destruct Hin|].
  assert (X : svars s1 = nobind /\ sp s1 = sp s /\ srules s1 = srules s /\ sorder s1 = sorder s).
  { destruct C1 as (_ & _ & _ & C1), Re1 as (R1 & R2 & R3 & R4 & R5 & R6). repeat split; congruence. }
  destruct Hin as [<-|Hin]; [rewrite E1 in He; injection He as <-; split; discriminate|].
  assert (Hact : forall r0 ru0 t s0 tr0, runs rely (g_act O r0 ru0 t) s0 tr0 f -> In h tr0 ->
    (forall r, ewhat e <> WSelected r) /\ ewhat e <> WNoRule).
  { intros r0 ru0 t s0 tr0 Hr0 Hin0.
    apply act_runs in Hr0. destruct Hr0 as [Hqq _]. rewrite Forall_forall in Hqq.
    assert (Hx : quiet e). { apply Hqq. unfold events. apply in_flat_map. exists h. split; [exact Hin0|]. rewrite He. now left. }
    destruct Hx as [Hx|[y Hx]]; rewrite Hx; split; [intro| |intro|]; discriminate. }
  destruct Hr as [[-> ->]|[(h2 & e2 & -> & _ & N2 & E2 & C2 & V2 & ->)|[(h2 & B2 & N2 & E2 & C2 & V2 & U2 & _ & Hs & Hr)|
     (h2 & s2 & tr2 & r2 & -> & B2 & N2 & E2 & C2 & V2 & _ & U2 & Hs & Re2 & Hr)]]].
  - destruct Hin.
  - destruct Hin as [<-|[]]. congruence.
  - destruct Hr as [[-> ->]|(s2 & -> & Re2 & ->)].
    + destruct Hin as [<-|[]]. rewrite E2 in He. injection He as <-. split; [discriminate|]. rewrite B2. auto.
    + destruct Hin as [<-|[<-|[]]]; [|discriminate]. rewrite E2 in He. injection He as <-. split; [discriminate|]. rewrite B2. auto.
  - destruct Hin as [<-|Hin].
    { rewrite E2 in He; injection He as <-. split; [|discriminate]. cbn. intros r Hx. injection Hx as <-. rewrite B2. auto. }
    destruct Hr as [[-> ->]|(s3 & tr3 & -> & Re3 & Hr)]; [destruct Hin|].
    destruct Hin as [<-|Hin]; [cbn in He; injection He as <-; split; discriminate|].
    destruct (try_shape _ _ _ _ _ _ _ Hr) as [[-> ->]|[(h3 & e3 & -> & B3 & N3 & E3 & _ & -> & Hv)|[(h3 & ru & B3 & A3 & N3 & E3 & G3 & Hno & Hr3)|
      (h3 & ru & B3 & N3 & C3 & G3 & Hc & _ & Hr3)]]].
    + destruct Hin.
    + destruct Hin as [<-|[]]. congruence.
    + destruct Hr3 as [[-> ->]|(s4 & -> & Re4 & ->)].
      * destruct Hin as [<-|[]]. rewrite E3 in He. injection He as <-. split; discriminate.
      * destruct Hin as [<-|[<-|[]]]; [rewrite E3 in He; injection He as <-; split; discriminate|discriminate].
    + destruct Hr3 as [(E3 & s4 & tr4 & -> & Re4 & Hr4)|(again & n & E3 & s4 & tr4 & -> & Re4 & Hr4)].
      * destruct Hin as [<-|Hin]; [rewrite E3 in He; injection He as <-; split; discriminate|].
        destruct (Hact _ _ _ _ _ Hr4 Hin) as [A1 A2]. split; intros; [destruct (A1 r)|destruct A2]; assumption.
      * destruct Hin as [<-|Hin]; [rewrite E3 in He; injection He as <-; split; discriminate|].
        apply fire_shape in Hr4. destruct Hr4 as [[-> ->]|(h' & s6 & tr6 & -> & B6 & N6 & E6 & _ & V6 & _ & Re6 & Hr6)]; [destruct Hin|].
        destruct Hin as [<-|Hin]; [rewrite E6 in He; injection He as <-; split; discriminate|].
        destruct (Hact _ _ _ _ _ Hr6 Hin) as [A1 A2]. split; intros; [destruct (A1 r)|destruct A2]; assumption.
Qed.

Lemma matches_rule s r : rule_matches s r -> In r (dkeys (srules s)).
Proof. intros (ru & b & H & _). now apply dget_Some_key in H. Qed.

(** Rules are tried in the order [sorder], which lists all of them, the best first. *)
Theorem procedural_selects_best O t0 s tr f h e : runs rely (procedural O t0) s tr f -> In h tr -> hevent h = Some e ->
  quiet_noise s -> best_first (util s) (sorder s) -> incl (dkeys (srules s)) (sorder s) -> ~ In "" (sorder s) ->
  (forall r, ewhat e = WSelected r -> rule_matches (hbefore h) r /\
     forall m, rule_matches (hbefore h) m -> util (hbefore h) m <= util (hbefore h) r) /\
  (ewhat e = WNoRule -> forall m, ~ rule_matches (hbefore h) m).
Proof.
  intros Hr Hin He Hq Hb Hi Hn. destruct (procedural_selection _ _ _ _ _ _ _ Hr Hin He) as [H1 H2].
  set (s1 := hbefore h) in *.
  assert (Hgen : forall o, select O (choosing s1) = Ok o -> svars s1 = nobind -> sp s1 = sp s -> srules s1 = srules s -> sorder s1 = sorder s ->
    match o with
    | Some r => rule_matches s1 r /\ forall m, rule_matches s1 m -> util s1 m <= util s1 r
    | None => forall m, ~ rule_matches s1 m
    end).
  { intros o Hs X1 X2 X3 X4. unfold select in Hs.
    destruct (select_from O (choosing s1) 0 (sorder (choosing s1)) None None) as [o'|] eqn:E; [|discriminate]. cbn [rbind] in Hs.
    apply select_quiet in E; [|unfold quiet_noise; cbn; rewrite X2; exact Hq|exact X1].
    change (sorder (choosing s1)) with (sorder s1) in E.
    destruct E as [[-> Hno]|(be & n & af & El & -> & Hm & Hno)].
    - injection Hs as <-. intros m Hm. apply (Hno m); [|now apply matches_choosing].
      rewrite X4. apply Hi. rewrite <- X3. now apply matches_rule.
    - assert (n <> "") by (intros ->; apply Hn; rewrite <- X4, El; apply in_or_app; right; now left).
      destruct n as [|a n]; [congruence|]. injection Hs as <-.
      split; [now apply matches_choosing|]. intros m Hm'. change (util s1) with (util (choosing s1)).
      apply (first_match_best (choosing s1) (String a n) be af).
      + change (sorder (choosing s1)) with (sorder s1). rewrite X4.
        intros b1 n1 a1 m1 Hl Hin1. specialize (Hb b1 n1 a1 m1 Hl Hin1).
        unfold util in Hb |- *. cbn. rewrite X3. exact Hb.
      + exact El.
      + exact Hno.
      + cbn. rewrite X4. apply Hi. rewrite <- X3. now apply matches_rule.
      + now apply matches_choosing. }
  split.
  - intros r Hx. destruct (H1 r Hx) as (A & B & C & D & E). exact (Hgen _ A B C D E).
  - intros Hx. destruct (H2 Hx) as (A & B & C & D & E). exact (Hgen _ A B C D E).
Qed.

Lemma initial_order_ok s : sorder s = initial_order (srules s) -> NoDup (dkeys (srules s)) ->
  best_first (util s) (sorder s) /\ incl (dkeys (srules s)) (sorder s).
Proof.
  intros H nd. rewrite H. split; [now apply initial_order_sorted|].
  intros x Hx. eapply Permutation_in; [|exact Hx]. apply Permutation_sym, initial_order_perm.
Qed.

(** With noise: the rule number [j] of the order is tested with sample number [j]. *)
Theorem procedural_selects_noisy O t0 s tr f h e r : runs rely (procedural O t0) s tr f -> In h tr -> hevent h = Some e ->
  ewhat e = WSelected r -> qsub (sp s) = true -> ~ qnoise (sp s) == 0 ->
  let noise := onoise O (choosing (hbefore h)) in
  rule_matches (hbefore h) r /\
  exists j, nth_error (sorder s) j = Some r /\
    forall k m, nth_error (sorder s) k = Some m -> rule_matches (hbefore h) m ->
      util (hbefore h) m + noise k <= util (hbefore h) r + noise j.
Proof.
  intros Hr Hin He Hw Hq Hn noise. destruct (procedural_selection _ _ _ _ _ _ _ Hr Hin He) as [H1 _].
  destruct (H1 r Hw) as (Hs & X1 & X2 & X3 & X4). set (s1 := hbefore h) in *. unfold select in Hs.
  destruct (select_from O (choosing s1) 0 (sorder (choosing s1)) None None) as [o'|] eqn:E; [|discriminate]. cbn [rbind] in Hs.
  apply select_noisy in E; [|cbn; rewrite X2; assumption|cbn; rewrite X2; assumption|exact X1|discriminate].
  change (sorder (choosing s1)) with (sorder s1) in E. rewrite X4 in E.
  destruct E as [[-> _]|(j & n & Hj & -> & Hm & _ & Hall)]; [discriminate|].
  assert (n = r) by (destruct n; [discriminate|]; now injection Hs). subst n.
  split; [now apply matches_choosing|]. exists j. split; [exact Hj|].
  intros k m Hk Hmm. apply (Hall k m Hk). now apply matches_choosing.
Qed.

Theorem procedural_none_noisy O t0 s tr f h e : runs rely (procedural O t0) s tr f -> In h tr -> hevent h = Some e ->
  ewhat e = WNoRule -> qsub (sp s) = true -> ~ qnoise (sp s) == 0 ->
  incl (dkeys (srules s)) (sorder s) -> ~ In "" (sorder s) -> forall m, ~ rule_matches (hbefore h) m.
Proof.
  intros Hr Hin He Hw Hq Hn Hi Hne m Hm. destruct (procedural_selection _ _ _ _ _ _ _ Hr Hin He) as [_ H1].
  destruct (H1 Hw) as (Hs & X1 & X2 & X3 & X4). set (s1 := hbefore h) in *. unfold select in Hs.
  destruct (select_from O (choosing s1) 0 (sorder (choosing s1)) None None) as [o'|] eqn:E; [|discriminate]. cbn [rbind] in Hs.
  apply select_noisy in E; [|cbn; rewrite X2; assumption|cbn; rewrite X2; assumption|exact X1|discriminate].
  change (sorder (choosing s1)) with (sorder s1) in E. rewrite X4 in E.
  destruct E as [[-> Hno]|(j & n & Hj & -> & _)].
  - assert (Hx : In m (sorder s)) by (apply Hi; rewrite <- X3; now apply matches_rule).
    apply In_nth_error in Hx. destruct Hx as [k Hk].
    destruct (Hno k m Hk) as (q & Hq0 & _); [now apply matches_choosing|discriminate].
  - destruct n as [|a n]; [|discriminate]. apply Hne. eapply nth_error_In. exact Hj.
Qed.

(** ** Runs with a given environment *)

(** [env] is what the rest of the program does after an event. *)
Fixpoint exec (env : event -> st -> st) (fuel : nat) (g : gen) (s : st) : list hop * fin :=
  match fuel with
  | O => ([], FCut)
  | S fuel' =>
      match resume g s with
      | (s', ns, ODone) => ([MkHop s ns None s'], FDone)
      | (s', ns, ORaise e) => ([MkHop s ns None s'], FRaise e)
      | (s', ns, OCont k) => ([MkHop s ns None s'], FCont k)
      | (s', ns, OYield e k) => let (tr, f) := exec env fuel' k (env e s') in (MkHop s ns (Some e) s' :: tr, f)
      end
  end.

Lemma exec_runs (R : st -> st -> Prop) env : (forall e s, R s (env e s)) ->
  forall fuel g s, runs R g s (fst (exec env fuel g s)) (snd (exec env fuel g s)).
Proof.
  intros HR. induction fuel as [|n IH]; intros g s; cbn [exec fst snd]; [constructor|].
  destruct (resume g s) as [[s' ns] [|e|e k|k]] eqn:E; cbn [fst snd].
  - now constructor.
  - now constructor.
  - specialize (IH k (env e s')). destruct (exec env n k (env e s')) as [tr f]. cbn [fst snd] in *. econstructor; eauto.
  - now constructor.
Qed.

Definition undisturbed (e : event) (s : st) : st := s.
Lemma undisturbed_rely e s : rely s (undisturbed e s).
Proof. apply rely_refl. Qed.

Definition final (s : st) (tr : list hop) : st := match rev tr with h :: _ => hafter h | [] => s end.
