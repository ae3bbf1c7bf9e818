(** The simulation begins with what its steps need, and every call of run() ends. *)
From Coq Require Import Lia.
From Verif Require Import Base BaseFacts Chunks DecMem Buffers BufferFacts Productions ProdSpec CycleFacts LearnFacts RoundFacts Sim SimSpec SimFacts SerialFacts StoryFacts CostFacts BillFacts EndFacts Run RunSpec RunFacts.
Local Open Scope string_scope.
Local Open Scope list_scope.
Local Open Scope nat_scope.

(** ** The beginning *)

Section Begin.
Variables (s : st) (env : option gen).

Record ini (n : nat) (S : sim) : Prop := MkIni {
  ini_todo : todo S = [];
  ini_ss : ss S = s;
  ini_code : forall i r, proc_at i S = Some r -> pkind r = kind_of (pcode r) /\ (pcode r = KProc0 \/ (exists m, pcode r = KExtra0 m) \/ exists g, env = Some g /\ pcode r = KEnv0 g);
  ini_sum : list_sum (map (fun r => cap (pkind r)) (prs S)) <= 60 + 3 * n;
  ini_val : forall ev x, value_of ev S <> Some (Good (XCont x));
  ini_acts : forall m ev, dget (acts S) m = Some ev -> role_at ev RAct S;
  ini_pact : role_at (pact S) RAct S;
  ini_main : exists m, proc_at 0 S = Some m /\ pcode m = KProc0 }.

Lemma role_snoc ev r S e S' : role_at ev r S -> evs S' = evs S ++ [e] -> role_at ev r S'.
Proof. intros (x & Hx & Hr) E. exists x. split; [|exact Hr]. unfold event_at in *. rewrite E. rewrite nth_error_app1; [exact Hx|]. apply nth_error_Some. congruence. Qed.
Lemma role_snoc2 ev r S e e2 S' : role_at ev r S -> evs S' = (evs S ++ [e]) ++ [e2] -> role_at ev r S'.
Proof. intros (x & Hx & Hr) E. exists x. split; [|exact Hr]. unfold event_at in *. rewrite E, <- app_assoc. rewrite nth_error_app1; [exact Hx|]. apply nth_error_Some. congruence. Qed.
Lemma role_below ev r S : role_at ev r S -> ev < List.length (evs S).
Proof. intros (x & Hx & _). apply nth_error_Some. unfold event_at in Hx. congruence. Qed.

Lemma sum_snoc (f : prc -> nat) l r : list_sum (map f (l ++ [r])) = list_sum (map f l) + f r.
Proof. rewrite map_app, list_sum_app. cbn [map]. change (list_sum [f r]) with (f r + 0). lia. Qed.

Lemma ini_spawn n k c S : ini n S -> (exists m, c = KExtra0 m) \/ (exists g, env = Some g /\ c = KEnv0 g) -> cap (kind_of c) <= 3 * k -> ini (n + k) (spawned c S).
Proof.
  intros [A B C D E F P G] Hc Hk. unfold spawned. constructor; cbn [todo ss prs acts pact set_queue set_prs set_evs]; auto.
  - intros i r. unfold proc_at. cbn [prs set_queue set_prs]. intros Hi. apply nth_snoc in Hi. destruct Hi as [Hi|[-> ->]]; [apply (C i r Hi)|]. cbn [pkind pcode]. auto.
  - rewrite sum_snoc. cbn [pkind]. lia.
  - intros ev x. unfold value_of, event_at. cbn [evs set_queue set_prs set_evs]. destruct (nth_error _ ev) as [e|] eqn:Hx; [|discriminate].
    apply nth_snoc in Hx. destruct Hx as [Hx|[-> ->]]; [|cbn; discriminate]. apply nth_snoc in Hx. destruct Hx as [Hx|[-> ->]]; [|cbn; discriminate].
    specialize (E ev x). unfold value_of, event_at in E. rewrite Hx in E. exact E.
  - intros m ev Hm. apply (role_snoc2 ev RAct S (MkEvt (ROwn (List.length (prs S))) None false (Some [])) (MkEvt (RInit (List.length (prs S))) (Some (Good XUnit)) false (Some [CResume (List.length (prs S))]))); [apply (F m ev Hm)|reflexivity].
  - apply (role_snoc2 _ RAct S (MkEvt (ROwn (List.length (prs S))) None false (Some [])) (MkEvt (RInit (List.length (prs S))) (Some (Good XUnit)) false (Some [CResume (List.length (prs S))]))); [exact P|reflexivity].
  - destruct G as (m & Hm & Em). exists m. split; [|exact Em]. unfold proc_at in *. cbn [prs set_queue set_prs]. rewrite nth_error_app1; [exact Hm|]. apply nth_error_Some. congruence.
Qed.

Definition grown (S : sim) : sim := set_evs (evs S ++ [MkEvt RAct None false (Some [])]) S.
Lemma new_event_eq S : new_event RAct S = (grown S, inl (List.length (evs S))).
Proof. reflexivity. Qed.
Lemma grown_new S : role_at (List.length (evs S)) RAct (grown S).
Proof. eexists. split; [unfold event_at, grown; cbn [evs set_evs]; rewrite nth_error_app2, Nat.sub_diag by lia; reflexivity|reflexivity]. Qed.
Lemma ini_grown n S : ini n S -> ini n (grown S).
Proof.
  intros [A B C D E F P G]. constructor; auto.
  - intros ev x. unfold value_of, event_at, grown. cbn [evs set_evs]. destruct (nth_error _ ev) as [e|] eqn:Hx; [|discriminate].
    apply nth_snoc in Hx. destruct Hx as [Hx|[-> ->]]; [|cbn; discriminate].
    specialize (E ev x). unfold value_of, event_at in E. rewrite Hx in E. exact E.
  - intros m ev Hm. apply (role_snoc ev RAct S (MkEvt RAct None false (Some []))); [apply (F m ev Hm)|reflexivity].
  - apply (role_snoc _ RAct S (MkEvt RAct None false (Some []))); [exact P|reflexivity].
Qed.

Lemma ini_extras names : forall n S, ini n S -> hasenv (exec_ (make_extras names) S) = hasenv S /\ ini (n + List.length names) (exec_ (make_extras names) S).
Proof.
  induction names as [|m names IH]; intros n S H; [cbn; rewrite Nat.add_0_r; auto|].
  replace (n + List.length (m :: names)) with (n + 1 + List.length names) by (cbn [List.length]; lia).
  destruct (String.eqb m PROCEDURAL) eqn:Em.
  - assert (Q : exec_ (make_extras (m :: names)) S = exec_ (make_extras names) S) by (cbn [make_extras]; rewrite Em; reflexivity). rewrite Q. apply IH.
    destruct H as [H1 H2 H3 H4 H5 H6 H7 H8]. constructor; auto. lia.
  - set (S1 := spawned (KExtra0 m) S). set (S2 := set_extras (dset (extras S1) m (List.length (prs S))) S1). set (S3 := set_acts (dset (acts (grown S2)) m (List.length (evs S2))) (grown S2)).
    assert (Q : exec_ (make_extras (m :: names)) S = exec_ (make_extras names) S3).
    { cbn [make_extras]. rewrite Em. unfold exec_, bind at 1. unfold bind at 1. rewrite spawn_eq. reflexivity. }
    rewrite Q.
    assert (I1 : ini (n + 1) S1) by (apply ini_spawn; [exact H|left; eauto|cbn; lia]).
    assert (I2 : ini (n + 1) S2) by (destruct I1 as [H1 H2 H3 H4 H5 H6 H7 H8]; constructor; auto).
    assert (I3 : ini (n + 1) S3).
    { pose proof (grown_new S2) as N. destruct (ini_grown _ _ I2) as [H1 H2 H3 H4 H5 H6 H7 H8]. constructor; auto. unfold S3. cbn [acts set_acts]. intros k ev. rewrite dget_dset. destruct (String.eqb m k); [|apply H6]. intros [= <-]. exact N. }
    destruct (IH (n + 1) S3 I3) as [A B]. split; [rewrite A; reflexivity|exact B].
Qed.

Definition begun (S : sim) : Prop := ini (List.length (snames s)) S /\
  (hasenv S = true -> role_at (eact S) RAct S /\ pact S <> eact S /\ forall n ev, dget (acts S) n = Some ev -> ev <> eact S).

Lemma init_begun t : begun (sim_init t s env).
Proof.
  unfold sim_init. set (S0 := MkSim _ _ _ _ _ _ _ _ _ _ _ _ _ _ _ _). unfold initialise, exec_. unfold bind at 1. rewrite spawn_eq. set (S1 := spawned KProc0 S0).
  assert (I1 : ini 0 S1).
  { constructor.
    - reflexivity.
    - reflexivity.
    - intros [|[|i]] r Hr; [injection Hr as <-; cbn; auto|discriminate..].
    - cbn. lia.
    - intros [|[|[|ev]]] x; try discriminate; cbn. destruct ev; discriminate.
    - intros m ev Hm. discriminate.
    - eexists. split; reflexivity.
    - eexists. split; reflexivity. }
  pose proof (ini_extras (dkeys (snames s)) 0 S1 I1) as [Hh I2]. unfold exec_ in Hh, I2. unfold bind at 1.
  assert (Hl : List.length (dkeys (snames s)) = List.length (snames s)) by (unfold dkeys; apply map_length). rewrite Hl in I2. cbn [plus] in I2.
  assert (Hok : forall names S, snd (make_extras names S) = inl tt).
  { induction names as [|m names IH]; intros S; [reflexivity|]. cbn [make_extras]. unfold bind at 1. destruct (String.eqb m PROCEDURAL); [unfold ret at 1; apply IH|].
    unfold bind at 1. rewrite spawn_eq. unfold bind at 1, upd_ at 1. unfold bind at 1. rewrite new_event_eq. unfold upd_ at 1. apply IH. }
  specialize (Hok (dkeys (snames s)) S1). destruct (make_extras (dkeys (snames s)) S1) as [S2 o]. cbn [fst snd] in *. subst o.
  unfold bind at 1. unfold bind at 1. rewrite new_event_eq. unfold upd_ at 1. set (S3 := set_pact _ (grown S2)).
  assert (I3 : ini (List.length (snames s)) S3). { pose proof (grown_new S2) as N. destruct (ini_grown _ _ I2) as [H1 H2 H3 H4 H5 H6 H7 H8]. constructor; auto. }
  destruct env as [g|] eqn:Ee.
  - unfold bind at 1. rewrite spawn_eq. unfold bind at 1. rewrite new_event_eq. unfold upd_ at 1. cbn [fst]. set (S4 := spawned (KEnv0 g) S3). set (S5 := set_eact _ (grown S4)).
    assert (I4 : ini (List.length (snames s)) S4). { rewrite <- (Nat.add_0_r (List.length (snames s))). apply ini_spawn; [exact I3|right; eauto|cbn; lia]. }
    pose proof (grown_new S4) as N. split.
    + destruct (ini_grown _ _ I4) as [H1 H2 H3 H4 H5 H6 H7 H8]. constructor; auto.
    + intros _. split; [exact N|]. change (eact S5) with (List.length (evs S4)). change (pact S5) with (pact S4). change (acts S5) with (acts S4). split.
      * pose proof (role_below _ _ _ (ini_pact _ _ I4)). lia.
      * intros n ev Hn. pose proof (role_below _ _ _ (ini_acts _ _ I4 n ev Hn)). lia.
  - unfold ret. cbn [fst]. split; [exact I3|]. change (hasenv S3) with (hasenv S2). rewrite Hh. change (hasenv S1) with false. discriminate.
Qed.
End Begin.

(** ** Every call ends *)

Lemma firing_tick q t : (1 # 10000 <= q)%Q -> (t + 1 <= roundtime (seconds_of t + q))%Z.
Proof.
  intros H. transitivity (roundtime (seconds (t + 1))); [rewrite roundtime_seconds; lia|]. apply roundtime_mono.
  assert (E : (seconds (t + 1) == seconds_of t + (1 # 10000))%Q). { unfold seconds, seconds_of, Qeq, Qplus. cbn [Qnum Qden]. lia. }
  rewrite E. apply Qplus_le_r. exact H.
Qed.

Section Total.
Variables (O : oracle) (t : Z) (s : st) (env : option gen).
Hypothesis He : forall g, env = Some g -> outside g /\ exists k d, costs k d g.

Notation NN := (List.length (snames s)).
Notation AM := (60 + 3 * NN).
Definition live (S : sim) : Prop := exists ks g, Pre AM NN O s ks S /\ stage_ok AM O g ks S.

Lemma live_init : live (sim_init t s env).
Proof.
  destruct (init_begun s env t) as [I E]. set (S := sim_init t s env) in *.
  assert (Hw : exists w, 87 <= w /\ forall g, env = Some g -> exists k d, costs k d g /\ EE AM NN * k + VV AM * d + 10 <= w).
  { destruct env as [g|]; [|exists 87; split; [lia|discriminate]]. destruct (He g eq_refl) as (_ & k & d & C). exists (87 + (EE AM NN * k + VV AM * d + 10)). split; [apply Nat.le_add_r|].
    intros g' [= <-]. exists k, d. split; [exact C|]. lia. }
  destruct Hw as (w & Hw & Hg). exists (fun _ => w), SFree.
  assert (Hx : hx S = None) by (unfold hx; rewrite (ini_todo _ _ _ _ I); reflexivity).
  split; [constructor|].
  - apply told_init. intros g Hg'. apply (He g Hg').
  - rewrite Hx. constructor.
    + intros i r Hr. destruct (ini_code _ _ _ _ I i r Hr) as [_ [->|[(m & ->)|(g & _ & ->)]]]; cbn [actwt]; lia.
    + exact (ini_sum _ _ _ _ I).
    + intros i r Hr _. destruct (ini_code _ _ _ _ I i r Hr) as [_ [->|[(m & ->)|(g & _ & ->)]]]; cbn [actwt]; tauto.
    + exact E.
    + exact (ini_pact _ _ _ _ I).
    + exact (ini_acts _ _ _ _ I).
  - intros i r Hr. destruct (ini_code _ _ _ _ I i r Hr) as [_ [->|[(m & ->)|(g & Eg & ->)]]]; cbn [okw]; [exact Hw|lia|]. exact (Hg g Eg).
  - intros ev x Hx'. elim (ini_val _ _ _ _ I ev x Hx').
  - intros p x. rewrite (ini_todo _ _ _ _ I). discriminate.
  - rewrite (ini_ss _ _ _ _ I). reflexivity.
  - split.
    + intros p r Hr Hc. destruct (ini_code _ _ _ _ I p r Hr) as [_ [X|[(m & X)|(g & _ & X)]]]; rewrite X in Hc; destruct Hc.
    + destruct (ini_main _ _ _ _ I) as (m & Hm & Em). exists m. split; [exact Hm|]. rewrite Em. exact Logic.I.
Qed.
Lemma step_dead S S' : sim_step O S = Some S' -> dead S = None.
Proof. unfold sim_step. destruct (dead S); [discriminate|reflexivity]. Qed.
(** Steps that do not report a conflict resolution, and those that do not report a selection. *)
Lemma quiet_less md g ks S S' : md <> MTime -> Pre AM NN O s ks S -> stage_ok AM O g ks S -> (forall p v l r, todo S = WRun p (Good v) :: l -> proc_at p S = Some r -> okc md (pcode r)) -> sim_step O S = Some S' ->
  exists ks' g', Pre AM NN O s ks' S' /\ stage_ok AM O g' ks' S' /\ less AM 0%Z md g' ks' S' g ks S.
Proof. intros Nm W H Hk Hs. apply (step_less AM NN O s 0%Z md); auto; [intros E; contradiction|exact (step_dead _ _ Hs)|intros E; contradiction]. Qed.
Lemma okc_two c : okc MNoConf c \/ okc MNoSel c.
Proof.
  destruct c as [| | | | | | | | |[] n e k| | | | |]; cbn [okc]; auto. destruct (ewhat e) as [ | | | | | | | ]; try (left; discriminate). right. intros ru. discriminate.
Qed.
Lemma live_step S S' : live S -> sim_step O S = Some S' -> live S'.
Proof.
  intros (ks & g & W & H) Hs.
  assert (M : exists md, md <> MTime /\ forall p v l r, todo S = WRun p (Good v) :: l -> proc_at p S = Some r -> okc md (pcode r)).
  { destruct (todo S) as [|[ev c|p o|ev] l]; try (solve [exists MNoConf; split; [discriminate|intros; discriminate]]).
    destruct (proc_at p S) as [r|] eqn:Hr; [|exists MNoConf; split; [discriminate|intros q v l' r' [= <- -> <-]; congruence]].
    destruct (okc_two (pcode r)) as [X|X]; [exists MNoConf|exists MNoSel]; (split; [discriminate|intros q v l' r' [= <- -> <-]; congruence]). }
  destruct M as (md & Nm & Hk). destruct (quiet_less md g ks S S' Nm W H Hk Hs) as (ks' & g' & W' & H' & _). exists ks', g'. auto.
Qed.
Lemma live_runs S : sim_runs O (sim_init t s env) S -> live S.
Proof. intros H. remember (sim_init t s env) as S0 eqn:E. induction H as [|S0 S1 S2 R IH Hs]; [subst; apply live_init|]. apply (live_step S1 S2); auto. Qed.
Notation lex := (lex3).
Lemma lex3_trans a b c : lex a b -> lex b c -> lex a c.
Proof. unfold lex3. lia. Qed.
Definition meas (md : mode) (g : stage) (ks : nat -> nat) (S : sim) : three := (FF 0%Z md g S, (TT g S, phi AM ks S)).

(** What one event sets off comes to an end: at most one piece of it is reported. *)
Lemma live_drain S : live S -> Inv2 S -> exists S', drain O S S'.
Proof.
  remember (ripes S) as n eqn:En. assert (Ln : ripes S <= n) by lia. clear En. revert S Ln. induction n as [n IHn] using lt_wf_ind. intros S Ln (ks & g & W & H).
  remember (meas MNoConf g ks S) as m eqn:Em. revert g ks S Ln Em W H. pattern m. apply (well_founded_ind (lex3_wf NN s (le_n _))). clear m. intros m IH g ks S Ln Em W H I.
  destruct (dead S) as [f|] eqn:Hd; [exists S; apply (drain_dead O S f Hd)|].
  destruct (todo S) as [|w l] eqn:Et; [exists S; apply drain_done; assumption|].
  assert (Hs : sim_step O S = Some (work_off O w (set_todo l S))) by (unfold sim_step; rewrite Hd, Et; reflexivity).
  pose proof (step_ok2 _ _ _ I Hs) as I1. destruct (work_apart O w l S (proj1 I) (proj2 I) Et) as (_ & R & (nw & Lg & _)). cbv zeta in R, Lg. rewrite Lg, app_length in R.
  assert (D : (exists p v r e, w = WRun p (Good v) /\ proc_at p S = Some r /\ said (pcode r) = Some e) \/ forall p v r, w = WRun p (Good v) -> proc_at p S = Some r -> said (pcode r) = None).
  { destruct w as [ev c|p [v|f]|ev]; try (right; intros; discriminate). destruct (proc_at p S) as [r|] eqn:Hr; [|right; intros q v' r' [= <- <-]; congruence].
    destruct (said (pcode r)) as [e|] eqn:Es; [left; exists p, v, r, e; auto|right; intros q v' r' [= <- <-]; congruence]. }
  destruct D as [(p & v & r & e & -> & Hr & Es)|D].
  - destruct (run_sum O p (Good v) l r S (proj1 I) Et Hr) as (Lg' & _). unfold told in Lg'. rewrite Es in Lg'. rewrite Lg in Lg'. apply app_inv_head in Lg'. subst nw. cbn [map List.length] in R.
    destruct (IHn (ripes (work_off O (WRun p (Good v)) (set_todo l S))) ltac:(lia) _ (le_n _)) as (S2 & D2); [apply (live_step S _ (ex_intro _ ks (ex_intro _ g (conj W H))) Hs)|exact I1|].
    exists S2. eapply drain_step; eauto. congruence.
  - destruct (quiet_less MNoConf g ks S (work_off O w (set_todo l S)) ltac:(discriminate) W H) with (2 := Hs) as (ks1 & g1 & W1 & H1 & L).
    { intros p v l' r E Hr. rewrite Et in E. injection E as -> ->. specialize (D p v r eq_refl Hr). destruct (pcode r) as [| | | | | | | | |[] nn ee kk| | | | |]; cbn [okc]; auto. discriminate D. }
    destruct (IH (meas MNoConf g1 ks1 (work_off O w (set_todo l S)))) with (g := g1) (ks := ks1) (S := work_off O w (set_todo l S)) as (S2 & Hl); auto; [subst m; exact L|lia|].
    exists S2. eapply drain_step; eauto. congruence.
Qed.

(** A state of a session: the clock may have been moved, and nothing happens any more once the queue is empty. *)
Definition near (S : sim) : Prop := live S \/ (exists u S0, live S0 /\ S = set_now u S0) \/ heap S = [].
Lemma near_step S S' : near S -> todo S = [] -> sim_step O S = Some S' -> live S'.
Proof.
  intros [L|[(u & S0 & L & ->)|Eh]] Et Hs; [exact (live_step S S' L Hs)| |].
  - apply (live_step S0 S' L). rewrite <- Hs. symmetry. apply step_now; [exact Et|]. intros Ep. apply peek_none in Ep.
    unfold sim_step in Hs. cbn [dead todo set_now heap] in Et, Hs. rewrite Et, Ep in Hs. destruct (dead S0); discriminate.
  - unfold sim_step in Hs. rewrite Et, Eh in Hs. destruct (dead S); discriminate.
Qed.
Lemma live_looped u S S' : loop O u S S' -> live S -> live S'.
Proof. intros L. induction L as [| |S S1 S2 Hd Hr Hs L IH]; auto. intros H. apply IH. exact (live_step S S1 H Hs). Qed.
Lemma live_drained S S' : drain O S S' -> live S -> live S'.
Proof. intros L. induction L as [| |S S1 S2 Hd Ht Hs L IH]; auto. intros H. apply IH. exact (live_step S S1 H Hs). Qed.
Lemma near_end S S' c : near S -> at_end O S = (S', c) -> near S'.
Proof.
  intros N. unfold at_end. destruct (peek S) eqn:Ep; [intros [= <- _]; exact N|]. apply peek_none in Ep. unfold compile_end.
  destruct (compile_now O (ss S)) as [[[[n again] rs]|]|e]; intros [= <- _]; try exact N. right. right. exact Ep.
Qed.
Lemma near_loop u S S' : near S -> todo S = [] -> loop O u S S' -> live S' \/ S' = S.
Proof. intros N Et L. inversion L; subst; auto. left. apply (live_looped u S1 S'); [assumption|]. exact (near_step S S1 N Et ltac:(assumption)). Qed.
Lemma near_now u S : near S -> near (set_now u S).
Proof.
  intros [L|[(v & S0 & L & ->)|Eh]]; right; [left; exists u, S; auto|left; exists u, S0; split; [exact L|reflexivity]|right; exact Eh].
Qed.
Lemma near_tick S S' : near S -> tick O S S' -> live S'.
Proof. intros N (S1 & Et & Hs & D). exact (live_drained S1 S' D (near_step S S1 N Et Hs)). Qed.
Lemma near_steps l S r : step_ O l S r -> near S -> near (fst (fst r)).
Proof.
  intros H. induction H as [S|S S1 f Hd Ti D1|S S1 e Hd Ti D1 N1|S S1 S2 f Hd Ti D1 N1 E1|S S1 S2 r Hd Ti D1 N1 E1 R IH]; intros N; cbn [fst] in *; auto.
  - left. exact (near_tick S S1 N Ti).
  - left. exact (near_tick S S1 N Ti).
  - apply (near_end S1 S2 _ (or_introl (near_tick S S1 N Ti)) E1).
  - apply IH. apply (near_end S1 S2 _ (or_introl (near_tick S S1 N Ti)) E1).
Qed.
Lemma near_session S l : session O t s env S l -> near S.
Proof.
  intros H. induction H as [|u S l S' H IH R|S l S' l' H IH R].
  - left. apply live_init.
  - pose proof (re_todo _ (session_rest _ _ _ _ _ _ H)) as Et. inversion R as [|S1 f L Lp D E|S1 L Lp D E]; subst.
    apply (near_end (set_now u S1) S' Returns); [|assumption]. apply near_now. destruct (near_loop u S S1 IH Et Lp) as [X| ->]; [left; exact X|exact IH].
  - exact (near_steps l S _ R IH).
Qed.

Theorem session_tick_ends S l : session O t s env S l -> heap S <> [] -> exists S', tick O S S'.
Proof.
  intros H Hh. pose proof (near_session S l H) as N. destruct (session_rest _ _ _ _ _ _ H) as [_ Et Hd].
  destruct (pop_min (heap S)) as [[q h]|] eqn:Ep; [|elim Hh; apply peek_none; unfold peek; rewrite Ep; reflexivity].
  assert (Hs : exists S1, sim_step O S = Some S1) by (unfold sim_step; rewrite Hd, Et, Ep; cbv zeta; destruct (event_at _ _); eexists; reflexivity).
  destruct Hs as (S1 & Hs). destruct (live_drain S1 (near_step S S1 N Et Hs) (step_ok2 _ _ _ (re_inv _ (session_rest _ _ _ _ _ _ H)) Hs)) as (S2 & D). exists S2, S1. auto.
Qed.

(** ** step() *)
(** What step() cannot pass over: a conflict resolution, or a selection if the last event shown was a conflict resolution. *)
Definition mode_of (l : option event) : mode := match l with Some e => match ewhat e with WConflict => MNoSel | _ => MNoConf end | None => MNoConf end.
Lemma mode_not l : mode_of l <> MTime.
Proof. destruct l as [[x y []]|]; discriminate. Qed.
Lemma what_eqb_eq a b : what_eqb a b = true -> match a with WConflict => b = WConflict | WSelected _ => exists r, b = WSelected r | _ => True end.
Proof. destruct a, b; cbn; try discriminate; eauto. Qed.
Lemma passed l S e : current_event S = Some e -> news l S = None -> forall n k, okc (mode_of l) (KLocal true n e k).
Proof.
  unfold news. intros -> Hn n k. destruct l as [e'|]; [|discriminate]. destruct (event_eqb e e') eqn:Ee; [|discriminate]. unfold event_eqb in Ee. apply andb_prop in Ee. destruct Ee as [_ Ee]. apply what_eqb_eq in Ee.
  unfold okc, mode_of. destruct (ewhat e') eqn:E'; try (intros X; rewrite X in Ee; discriminate). intros r X. rewrite X in Ee. destruct Ee as [r' Ee]. discriminate.
Qed.

Lemma drain_less md S S' : drain O S S' -> md <> MTime -> Inv2 S -> (forall new e, log S' = log S ++ new -> In e (map snd new) -> forall n k, okc md (KLocal true n e k)) ->
  forall g ks, Pre AM NN O s ks S -> stage_ok AM O g ks S ->
  exists g' ks', Pre AM NN O s ks' S' /\ stage_ok AM O g' ks' S' /\ (meas md g' ks' S' = meas md g ks S \/ lex (meas md g' ks' S') (meas md g ks S)).
Proof.
  intros D Nm. induction D as [S f Hd|S Hd Ht|S S1 S2 Hd Ht Hs D IH]; intros I Ok g ks W H; [exists g, ks; auto|exists g, ks; auto|].
  pose proof (step_ok2 _ _ _ I Hs) as I1. destruct (drain_sum _ _ _ D I1) as (_ & _ & _ & (n2 & L2 & _) & _). destruct (step_log _ _ _ I Hs) as (n1 & L1 & _).
  destruct (quiet_less md g ks S S1 Nm W H) with (2 := Hs) as (ks1 & g1 & W1 & H1 & L).
  { intros p v l r Et Hr. destruct (run_sum O p (Good v) l r S (proj1 I) Et Hr) as (Lg & _). unfold sim_step in Hs. rewrite Hd, Et in Hs. assert (ES : S1 = work_off O (WRun p (Good v)) (set_todo l S)) by congruence. clear Hs. rewrite <- ES in Lg.
    unfold told in Lg. rewrite Lg in L2.
    destruct (pcode r) as [| | | | | | | | |[] nn ee kk| | | | |]; try (destruct md; exact Logic.I).
    apply (Ok ([(now S, ee)] ++ n2) ee); [rewrite L2, <- app_assoc; reflexivity|left; reflexivity]. }
  destruct (IH I1) with (g := g1) (ks := ks1) as (g2 & ks2 & W2 & H2 & M); auto.
  { intros new e En Hi. apply (Ok (n1 ++ new) e); [rewrite En, L1, app_assoc; reflexivity|]. rewrite map_app. apply in_or_app. right. exact Hi. }
  exists g2, ks2. split; [exact W2|]. split; [exact H2|]. right. destruct M as [-> |M]; [exact L|]. eapply lex3_trans; [exact M|exact L].
Qed.

Lemma live_steps l S : live S -> rest S -> exists r, step_ O l S r.
Proof.
  intros (ks & g & W & H). remember (meas (mode_of l) g ks S) as m eqn:Em. revert g ks S Em W H. pattern m. apply (well_founded_ind (lex3_wf NN s (le_n _))). clear m. intros m IH g ks S Em W H R.
  destruct R as [I Et Hd]. destruct (peek S) as [tm|] eqn:Ep; [|eexists; apply step_empty; assumption].
  destruct (pop_min (heap S)) as [[q h]|] eqn:Eq; [|unfold peek in Ep; rewrite Eq in Ep; discriminate].
  assert (Hs : exists S1, sim_step O S = Some S1) by (unfold sim_step; rewrite Hd, Et, Eq; cbv zeta; destruct (event_at _ _); eexists; reflexivity).
  destruct Hs as (S1 & Hs). pose proof (step_ok2 _ _ _ I Hs) as I1.
  destruct (live_drain S1 (live_step S S1 (ex_intro _ ks (ex_intro _ g (conj W H))) Hs) I1) as (S2 & D).
  assert (Tk : tick O S S2) by (exists S1; auto). destruct (tick_sum O S S2 I Tk) as (I2 & _ & Et2 & Lg).
  destruct (dead S2) as [f|] eqn:D2; [eexists; eapply step_raises; eauto|]. destruct (news l S2) as [e|] eqn:Nw; [eexists; eapply step_shows; eauto|].
  destruct (at_end O S2) as [S3 c] eqn:Ea.
  destruct (quiet_less (mode_of l) g ks S S1 (mode_not l) W H) with (2 := Hs) as (ks1 & g1 & W1 & H1 & L); [intros p v l' r E; rewrite Et in E; discriminate|].
  destruct (pop_sum _ _ _ (proj1 I) (proj2 I) Et Hs) as (_ & L1 & _).
  destruct (drain_less (mode_of l) S1 S2 D (mode_not l) I1) with (g := g1) (ks := ks1) as (g2 & ks2 & W2 & H2 & M); auto.
  { intros new e En Hi n k. rewrite L1 in En. destruct Lg as [Lg|(e' & Lg)]; rewrite Lg in En; [rewrite <- (app_nil_r (log S)) in En at 1; apply app_inv_head in En; subst new; destruct Hi|].
    apply app_inv_head in En. subst new. destruct Hi as [Hi|[]]. cbn [snd] in Hi. subst e'. destruct (known e) eqn:Kn.
    - apply (passed l S2); [|exact Nw]. unfold current_event, trace_of. rewrite Lg, map_app, filter_app. cbn [map snd filter]. rewrite Kn, map_app. cbn [map]. apply last_last.
    - unfold okc, known in *. destruct (mode_of l); auto; [intros X|intros r X]; rewrite X in Kn; discriminate. }
  destruct (peek S2) as [t2|] eqn:Ep2.
  - unfold at_end in Ea. rewrite Ep2 in Ea. injection Ea as <- <-.
    destruct (IH (meas (mode_of l) g2 ks2 S2)) with (g := g2) (ks := ks2) (S := S2) as (r & Hr); auto.
    + subst m. destruct M as [-> |M]; [exact L|]. eapply lex3_trans; [exact M|exact L].
    + constructor; auto.
    + exists r. apply (step_more O l S S2 S2 r); auto. unfold at_end. rewrite Ep2. reflexivity.
  - destruct (at_end_sum _ _ _ _ Ea) as (x & ->). destruct c as [|f|].
    + eexists. apply (step_more O l S S2 (set_ss x S2)); auto. apply step_empty; [exact (Et2 eq_refl)|exact D2|exact Ep2].
    + eexists. apply (step_compile O l S S2 (set_ss x S2) f); auto.
    + exfalso. unfold at_end in Ea. rewrite Ep2 in Ea. unfold compile_end in Ea. destruct (compile_now O (ss S2)) as [[[[n0 again] rs]|]|e]; discriminate.
Qed.

Theorem session_step_ends S l : session O t s env S l -> exists r, step_ O l S r.
Proof.
  intros H. pose proof (near_session S l H) as N. pose proof (session_rest _ _ _ _ _ _ H) as R. destruct R as [I Et Hd].
  destruct N as [L|[(u & S0 & L & ->)|Eh]]; [apply live_steps; [exact L|constructor; assumption]| |eexists; apply step_empty; [exact Et|exact Hd|apply peek_none; exact Eh]].
  destruct (peek S0) as [tm|] eqn:Ep; [|eexists; apply step_empty; [exact Et|exact Hd|exact Ep]].
  destruct (session_tick_ends _ _ H) as (S2 & Tk); [intros E; apply peek_none in E; change (peek (set_now u S0)) with (peek S0) in E; congruence|].
  destruct (tick_sum O _ S2 I Tk) as (I2 & _ & Et2 & _). pose proof (near_tick _ S2 (near_session _ _ H) Tk) as L2.
  destruct (dead S2) as [f|] eqn:D2; [eexists; eapply step_raises; eauto|]. destruct (news l S2) as [e|] eqn:Nw; [eexists; eapply step_shows; eauto|].
  destruct (at_end O S2) as [S3 c] eqn:Ea. destruct (peek S2) as [t2|] eqn:Ep2.
  - unfold at_end in Ea. rewrite Ep2 in Ea. injection Ea as <- <-. destruct (live_steps l S2 L2 ltac:(constructor; auto)) as (r & Hr).
    exists r. apply (step_more O l (set_now u S0) S2 S2 r); auto. unfold at_end. rewrite Ep2. reflexivity.
  - destruct (at_end_sum _ _ _ _ Ea) as (x & ->). destruct c as [|f|].
    + eexists. apply (step_more O l (set_now u S0) S2 (set_ss x S2)); auto. apply step_empty; [exact (Et2 eq_refl)|exact D2|exact Ep2].
    + eexists. apply (step_compile O l (set_now u S0) S2 (set_ss x S2) f); auto.
    + exfalso. unfold at_end in Ea. rewrite Ep2 in Ea. unfold compile_end in Ea. destruct (compile_now O (ss S2)) as [[[[n0 again] rs]|]|e]; discriminate.
Qed.

(** ** run() *)
Hypothesis fire : (1 # 10000 <= qfiring (sp s))%Q.
Lemma live_loop u S : live S -> (now S < u)%Z -> exists S', loop O u S S'.
Proof. intros (ks & g & W & H) Hu. destruct (loop_total AM NN O s u MTime (fun _ x => firing_tick _ x fire) (le_n _) g ks S eq_refl W H Hu) as (S' & L & _). exists S'. exact L. Qed.
Theorem session_run_ends S l u : session O t s env S l -> exists r, run O u S r.
Proof.
  intros H. pose proof (near_session S l H) as N. destruct (session_rest _ _ _ _ _ _ H) as [_ Et Hd].
  destruct (Z_lt_le_dec (now S) u) as [Hu|Hu]; [|eexists; apply run_late; exact Hu].
  assert (L : exists S', loop O u S S').
  { destruct (reached u S) eqn:Hr; [exists S; apply loop_stop; assumption|].
    unfold reached, between, peek in Hr. rewrite Et in Hr. cbn [andb] in Hr. destruct (pop_min (heap S)) as [[q h]|] eqn:Ep; [|discriminate]. apply Z.leb_gt in Hr.
    assert (Hs : exists S1, sim_step O S = Some S1 /\ now S1 = qtime q).
    { unfold sim_step. rewrite Hd, Et, Ep. cbv zeta. destruct (event_at _ _); eexists; (split; [reflexivity|]); [|reflexivity]. unfold exec_, set_event, upd_. cbn [fst]. destruct (nth_error _ _); reflexivity. }
    destruct Hs as (S1 & Hs & Hq). destruct (live_loop u S1 (near_step S S1 N Et Hs) ltac:(lia)) as (S2 & L). exists S2. apply (loop_step O u S S1 S2); auto.
    unfold reached, between, peek. rewrite Et, Ep. cbn [andb]. apply Z.leb_gt. exact Hr. }
  destruct L as (S' & L). destruct (dead S') as [f|] eqn:D; eexists; [exact (run_raises O u S S' f Hu L D)|exact (run_returns O u S S' Hu L D)].
Qed.
End Total.
