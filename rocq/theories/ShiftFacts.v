(** Shifts of visual attention: what they announce, and when (C91, C92). *)
From Coq Require Import Sorted Lqa.
From Verif Require Import Base BaseFacts Chunks RoundFacts Buffers BufferFacts Productions ProdSpec CycleFacts EffectFacts.
Local Open Scope string_scope.
Local Open Scope list_scope.

Section Shift.
Variables (R : st -> st -> Prop) (O : oracle) (name : string) (i : nat).
Local Notation E t x := (MkEv (roundtime t) name (WText x)).
(** The old chunk leaves the buffer, and the new one is seen. *)
Definition seen (t : Q) : list event := [E t "CLEARED"; E t "ENCODED VIS OBJECT"].

Lemma events_cons h tr : events (h :: tr) = match hevent h with Some e => e :: events tr | None => events tr end.
Proof. unfold events. cbn [flat_map]. destruct (hevent h); reflexivity. Qed.

(** An encoding followed by [k]. *)
Lemma encode_runs ch t x site k s tr f : runs R (gseq (g_encode name i ch t x site) k) s tr f -> f <> FCut ->
  (forall e, f <> FRaise e) -> exists s' tr', runs R k s' tr' f /\ events tr = seen (t + x) ++ events tr'.
Proof.
  intros H NC NR. unfold g_encode, g_clear, gcall in H. cbn [gseq] in H.
  match type of H with runs _ ?g _ _ _ => remember (resume g s) as L eqn:EL end. symmetry in EL. pose proof EL as E2. cbn [resume] in E2.
  destruct (clear_into (set_state i "busy" (set_focus i site (set_state i "busy" s))) i name false (t + x)) as [w3 [[]|e]]; cbn [resume gseq] in E2; rewrite <- E2 in EL; clear E2 L.
  2:{ destruct (runs_step _ _ _ _ _ _ _ _ EL H) as [[_ X]|[_ X]]; [elim (NC X)|elim (NR _ X)]. }
  destruct (runs_step _ _ _ _ _ _ _ _ EL H) as [[_ X]|(s3 & tr3 & -> & _ & Hr3)]; [elim (NC X)|]. clear EL H.
  apply runs_get in Hr3. cbn beta in Hr3.
  destruct (on_buf s3 i (fun b => add_buf (sw s3) i b (AChunk ch) (t + x) None None)) as [w4 [[]|e]]; cbn [gseq] in Hr3.
  2:{ step_of Hr3 E5. destruct (runs_step _ _ _ _ _ _ _ _ E5 Hr3) as [[_ X]|[_ X]]; [elim (NC X)|elim (NR _ X)]. }
  step_of Hr3 E5. destruct (runs_step _ _ _ _ _ _ _ _ E5 Hr3) as [[_ X]|(s4 & tr4 & -> & _ & Hr4)]; [elim (NC X)|].
  exists s4, tr4. split; [exact Hr4|]. rewrite !events_cons. reflexivity.
Qed.

Lemma runs_one g s tr f : runs R g s tr f -> f <> FCut -> forall s' ns e k, resume g s = (s', ns, OYield e k) ->
  exists s'' tr', runs R k s'' tr' f /\ events tr = e :: events tr' /\ R s' s''.
Proof.
  intros H NC s' ns e k Er. destruct (run_step _ _ _ _ _ H _ _ _ Er) as [[_ X]|(s'' & tr' & -> & Rr & H')]; [elim (NC X)|].
  exists s'', tr'. split; [exact H'|]. split; [rewrite events_cons; reflexivity|exact Rr].
Qed.

Lemma shift_runs c bs t s tr g : runs R (g_shift O name i c bs t) s tr (FCont g) ->
  exists w ch enc prep exe site, oshift O s i c bs = (w, Ok (ch, (enc, prep, exe), site)) /\
    g = g_viscont O name i ch bs (t + prep) (enc, prep, exe) site /\
    events tr = E t "PREPARATION TO SHIFT VISUAL ATTENTION STARTED" ::
      (if Qle_bool enc prep then seen (t + enc) else []) ++
      E (t + prep) "PREPARATION TO SHIFT VISUAL ATTENTION COMPLETED" ::
      (if negb (Qle_bool enc prep) && Qle_bool enc (prep + exe) then seen (t + prep - prep + enc) else []).
Proof.
  intros H. unfold g_shift in H. unfold gcall in H at 1. apply runs_get in H. cbn beta in H.
  destruct (oshift O s i c bs) as [w [[[ch [[enc prep] exe]] site]|e]] eqn:Eo.
  2:{ step_of H E1. destruct (run_step _ _ _ _ _ H _ _ _ E1) as [[_ X]|[_ X]]; discriminate. }
  exists w, ch, enc, prep, exe, site. split; [reflexivity|]. clear Eo.
  step_of H E1. destruct (runs_one _ _ _ _ H ltac:(discriminate) _ _ _ _ E1) as (s1 & tr1 & H1 & -> & _). clear H E1.
  assert (A : exists s2 tr2, runs R (GYield (ev (t + prep) name (WText "PREPARATION TO SHIFT VISUAL ATTENTION COMPLETED"))
       (gseq (if negb (Qle_bool enc prep) && Qle_bool enc (prep + exe) then g_encode name i ch (t + prep - prep) enc site else GRet)
       (GCont (g_viscont O name i ch bs (t + prep) (enc, prep, exe) site)))) s2 tr2 (FCont g) /\
       events tr1 = (if Qle_bool enc prep then seen (t + enc) else []) ++ events tr2).
  { destruct (Qle_bool enc prep).
    - apply encode_runs in H1; [|discriminate|discriminate]. exact H1.
    - exists s1, tr1. split; [exact H1|reflexivity]. }
  destruct A as (s2 & tr2 & H2 & ->). clear H1.
  step_of H2 E1. destruct (runs_one _ _ _ _ H2 ltac:(discriminate) _ _ _ _ E1) as (s3 & tr3 & H3 & -> & _). clear H2 E1.
  assert (A : exists s4 tr4, runs R (GCont (g_viscont O name i ch bs (t + prep) (enc, prep, exe) site)) s4 tr4 (FCont g) /\
       events tr3 = (if negb (Qle_bool enc prep) && Qle_bool enc (prep + exe) then seen (t + prep - prep + enc) else []) ++ events tr4).
  { destruct (negb (Qle_bool enc prep) && Qle_bool enc (prep + exe)).
    - apply encode_runs in H3; [|discriminate|discriminate]. exact H3.
    - exists s3, tr3. split; [exact H3|reflexivity]. }
  destruct A as (s4 & tr4 & H4 & ->). clear H3. step_of H4 E1.
  destruct (run_step _ _ _ _ _ H4 _ _ _ E1) as [[_ X]|[-> X]]; [discriminate|].
  split; [exact (f_equal (fun f => match f with FCont k => k | _ => GRet end) X)|]. cbn. rewrite app_nil_r. reflexivity.
Qed.

Lemma viscont_runs ch bs t enc prep exe site s tr : runs R (g_viscont O name i ch bs t (enc, prep, exe) site) s tr FDone ->
  let t1 := ((if Qle_bool (mvt_of s i) t then t else mvt_of s i) + exe)%Q in
  exists late, events tr = MkEv (roundtime t1) name WUnknown :: E t1 "SHIFT COMPLETE" :: late /\
    ((enc <= prep + exe)%Q -> late = []) /\
    ((prep + exe < enc)%Q -> exists u w ch2 enc2 prep2 exe2 site2, oshift O u i (CChunk ch) bs = (w, Ok (ch2, (enc2, prep2, exe2), site2)) /\
       late = seen (t1 + (1 - (prep + exe) / enc) * enc2)).
Proof.
  intros H t1. unfold g_viscont in H.
  assert (M : mvt_of (set_attrs i [("preparation", "free"); ("execution", "busy")] s) i = mvt_of s i).
  { unfold mvt_of, set_attrs. destruct (nth_error (smods s) i) as [m|] eqn:N; [|rewrite N; reflexivity]. cbn. rewrite (upd_same _ _ _ m) by exact N. reflexivity. }
  step_of H E1. rewrite M in E1. fold t1 in E1.
  destruct (runs_one _ _ _ _ H ltac:(discriminate) _ _ _ _ E1) as (s1 & tr1 & H1 & -> & _). clear H E1 M.
  step_of H1 E1. destruct (runs_one _ _ _ _ H1 ltac:(discriminate) _ _ _ _ E1) as (s2 & tr2 & H2 & -> & _). clear H1 E1.
  exists (events tr2). split; [reflexivity|].
  destruct (Qle_bool enc (prep + exe)) eqn:Q.
  - split; [|intros X; apply Qle_bool_iff in Q; lra]. intros _. cbn [gseq] in H2. step_of H2 E1.
    destruct (run_step _ _ _ _ _ H2 _ _ _ E1) as [[_ X]|[-> _]]; [discriminate|reflexivity].
  - split; [intros X; apply Qle_bool_iff in X; congruence|]. intros _. unfold gcall in H2 at 1. cbn [gseq] in H2. apply runs_get in H2. cbn beta in H2.
    destruct (oshift O s2 i (CChunk ch) bs) as [w [[[ch2 [[enc2 prep2] exe2]] site2]|e]] eqn:Eo; cbn [gseq] in H2.
    2:{ step_of H2 E1. destruct (run_step _ _ _ _ _ H2 _ _ _ E1) as [[_ X]|[_ X]]; discriminate. }
    exists s2, w, ch2, enc2, prep2, exe2, site2. split; [exact Eo|].
    match type of H2 with runs _ (GAct ?f ?g) _ _ _ =>
      assert (A : exists tr', runs R g (f s2) tr' FDone /\ events tr2 = events tr') end.
    { inversion H2; subst; cbn [resume] in *.
      - eexists. split; [apply runs_done; eassumption|reflexivity].
      - eexists. split; [eapply runs_yield; eassumption|reflexivity]. }
    destruct A as (tr' & A & ->). apply encode_runs in A; [|discriminate|discriminate]. destruct A as (s5 & tr5 & H5 & ->).
    step_of H5 E1. destruct (run_step _ _ _ _ _ H5 _ _ _ E1) as [[_ X]|[-> _]]; [discriminate|]. rewrite app_nil_r. reflexivity.
Qed.
End Shift.

(** ** Statements *)

(** No time that belongs to a shift is negative. *)
Definition sane_times (O : oracle) : Prop := forall u i c bs w ch enc prep exe site,
  oshift O u i c bs = (w, Ok (ch, (enc, prep, exe), site)) -> (0 <= enc /\ 0 <= prep /\ 0 <= exe)%Q.

Definition is_seen (e : event) : bool := match ewhat e with WText x => String.eqb x "ENCODED VIS OBJECT" | _ => false end.

Section Phases.
Variables (R : st -> st -> Prop) (O : oracle) (name : string) (i : nat).
Hypothesis SO : sane_times O.
Local Notation E t x := (MkEv (roundtime t) name (WText x)).

Lemma request_shift c bs t s tr g : of_kind (sw s) i KVisual -> runs R (start O MRetrieve name i c bs t) s tr (FCont g) ->
  exists s1 tr1, runs R (g_shift O name i c bs t) s1 tr1 (FCont g) /\ events tr = events tr1.
Proof.
  intros (b & Eb & Kb) H. cbn [start] in H. unfold g_request in H.
  assert (A : exists tr1, runs R (g_visual O name i c bs t) (set_state i "busy" s) tr1 (FCont g) /\ events tr = events tr1).
  { assert (Ew : sw (set_state i "busy" s) = sw s) by (unfold set_state, set_attrs; destruct (nth_error (smods s) i); reflexivity).
    inversion H; subst; cbn [resume] in *; rewrite Ew, Eb, Kb in *.
    - eexists. split; [apply runs_cont; eassumption|reflexivity].
    - eexists. split; [eapply runs_yield; eassumption|reflexivity]. }
  destruct A as (tr1 & A & ->). exists (set_state i "busy" s), tr1. split; [|reflexivity]. clear H.
  assert (NC : FCont g <> FCut) by discriminate.
  unfold g_visual in A. destruct c as [o| | |]; try (step_of A E1; destruct (run_step _ _ _ _ _ A _ _ _ E1) as [[_ X]|[_ X]]; discriminate).
  destruct (resolve_slots bs true (removeunused o)) as [args|e]; [|step_of A E1; destruct (run_step _ _ _ _ _ A _ _ _ E1) as [[_ X]|[_ X]]; discriminate].
  assert (FR : forall e s tr, runs R (GRaise e) s tr (FCont g) -> False).
  { intros e s2 tr2 H. step_of H E1. destruct (run_step _ _ _ _ _ H _ _ _ E1) as [[_ X]|[_ X]]; discriminate. }
  assert (FT : forall s tr, runs R GRet s tr (FCont g) -> False).
  { intros s2 tr2 H. step_of H E1. destruct (run_step _ _ _ _ _ H _ _ _ E1) as [[_ X]|[_ X]]; discriminate. }
  destruct (dget args "cmd") as [[|w| |]|]; try (exfalso; exact (FR _ _ _ A)).
  destruct (vvals w) as [| |x|]; try (exfalso; exact (FR _ _ _ A)); try (exfalso; exact (FT _ _ A)).
  repeat match type of A with runs _ (match ?z with _ => _ end) _ _ _ => is_var z; destruct z; try (exfalso; exact (FR _ _ _ A)); try (exfalso; exact (FT _ _ A)); try exact A end.
  step_of A E1. destruct (runs_one _ _ _ _ _ A NC _ _ _ _ E1) as (s2 & tr2 & H2 & _). elim (FT _ _ H2).
Qed.

Theorem shift_phases c bs t s tr g s' tr' : of_kind (sw s) i KVisual ->
  runs R (start O MRetrieve name i c bs t) s tr (FCont g) -> runs R g s' tr' FDone ->
  exists u w ch enc prep exe site, oshift O u i c bs = (w, Ok (ch, (enc, prep, exe), site)) /\
  let t1 := ((if Qle_bool (mvt_of s' i) (t + prep) then t + prep else mvt_of s' i) + exe)%Q in
  exists early mid late,
    events tr = E t "PREPARATION TO SHIFT VISUAL ATTENTION STARTED" :: early ++ E (t + prep) "PREPARATION TO SHIFT VISUAL ATTENTION COMPLETED" :: mid /\
    events tr' = MkEv (roundtime t1) name WUnknown :: E t1 "SHIFT COMPLETE" :: late /\
    ((enc <= prep)%Q -> early = seen name (t + enc) /\ mid = [] /\ late = []) /\
    ((prep < enc <= prep + exe)%Q -> early = [] /\ mid = seen name (t + enc) /\ late = []) /\
    ((prep + exe < enc)%Q -> early = [] /\ mid = [] /\
       exists u2 w2 ch2 enc2 prep2 exe2 site2, oshift O u2 i (CChunk ch) bs = (w2, Ok (ch2, (enc2, prep2, exe2), site2)) /\
         late = seen name (t1 + (1 - (prep + exe) / enc) * enc2)).
Proof.
  intros K H H'. destruct (request_shift _ _ _ _ _ _ K H) as (s1 & tr1 & H1 & ->). clear H.
  destruct (shift_runs _ _ _ _ _ _ _ _ _ _ H1) as (w & ch & enc & prep & exe & site & Eo & -> & ->).
  exists s1, w, ch, enc, prep, exe, site. split; [exact Eo|]. intros t1.
  destruct (viscont_runs _ _ _ _ _ _ _ _ _ _ _ _ _ H') as (late & -> & L1 & L2). fold t1 in L2.
  pose proof (SO _ _ _ _ _ _ _ _ _ _ Eo) as (N1 & N2 & N3).
  eexists _, _, late. split; [reflexivity|]. split; [reflexivity|]. split; [|split].
  - intros Q. pose proof Q as Q'. apply Qle_bool_iff in Q. rewrite Q. split; [reflexivity|]. split; [reflexivity|]. apply L1. lra.
  - intros [Q1 Q2]. destruct (Qle_bool enc prep) eqn:B; [apply Qle_bool_iff in B; lra|]. pose proof Q2 as Q'. apply Qle_bool_iff in Q2. rewrite Q2.
    split; [reflexivity|]. split; [|apply L1; exact Q']. cbn. unfold seen. rewrite (roundtime_ext (t + prep - prep + enc) (t + enc)) by lra. reflexivity.
  - intros Q. destruct (Qle_bool enc prep) eqn:B; [apply Qle_bool_iff in B; lra|].
    destruct (Qle_bool enc (prep + exe)) eqn:B2; [apply Qle_bool_iff in B2; lra|]. split; [reflexivity|]. split; [reflexivity|]. exact (L2 Q).
Qed.

Lemma share (a b c : Q) : (0 <= a)%Q -> (0 < b)%Q -> (a <= b)%Q -> (0 <= c)%Q -> (0 <= (1 - a / b) * c)%Q.
Proof.
  intros A B L C. apply Qmult_le_0_compat; [|exact C]. assert (a / b <= 1)%Q; [|lra].
  apply Qle_shift_div_r; [exact B|]. lra.
Qed.

Theorem shift_ordered c bs t s tr g s' tr' : of_kind (sw s) i KVisual ->
  runs R (start O MRetrieve name i c bs t) s tr (FCont g) -> runs R g s' tr' FDone ->
  Sorted Z.le (map etime (events tr ++ events tr')) /\ exists e, filter is_seen (events tr ++ events tr') = [e].
Proof.
  intros K H H'. destruct (shift_phases _ _ _ _ _ _ _ _ K H H') as (u & w & ch & enc & prep & exe & site & Eo & X).
  pose proof (SO _ _ _ _ _ _ _ _ _ _ Eo) as (N1 & N2 & N3).
  set (t1 := ((if Qle_bool (mvt_of s' i) (t + prep) then t + prep else mvt_of s' i) + exe)%Q) in X.
  assert (T1 : (t + prep + exe <= t1)%Q).
  { unfold t1. destruct (Qle_bool (mvt_of s' i) (t + prep)) eqn:B; [lra|].
    assert (~ (mvt_of s' i <= t + prep)%Q) by (intros Y; apply Qle_bool_iff in Y; congruence). lra. }
  clearbody t1. cbv zeta in X. destruct X as (early & mid & late & -> & -> & X1 & X2 & X3).
  destruct (Qlt_le_dec prep enc) as [Q1|Q1]; [destruct (Qlt_le_dec (prep + exe) enc) as [Q2|Q2]|].
  - destruct (X3 Q2) as (-> & -> & u2 & w2 & ch2 & enc2 & prep2 & exe2 & site2 & Eo2 & ->).
    pose proof (SO _ _ _ _ _ _ _ _ _ _ Eo2) as (M1 & _).
    assert (S : (0 <= (1 - (prep + exe) / enc) * enc2)%Q) by (apply share; lra).
    split; [|eexists; reflexivity]. cbn. repeat (constructor; try (apply roundtime_mono; lra)); apply Z.le_refl.
  - destruct (X2 (conj Q1 Q2)) as (-> & -> & ->). split; [|eexists; reflexivity].
    cbn. repeat (constructor; try (apply roundtime_mono; lra)); apply Z.le_refl.
  - destruct (X1 Q1) as (-> & -> & ->). split; [|eexists; reflexivity].
    cbn. repeat (constructor; try (apply roundtime_mono; lra)); apply Z.le_refl.
Qed.

(** Looking at an object does not make it be seen later than it would be from where the eyes were. *)
Theorem shift_no_later c bs t s tr g s' tr' : of_kind (sw s) i KVisual ->
  runs R (start O MRetrieve name i c bs t) s tr (FCont g) -> runs R g s' tr' FDone ->
  exists u w ch enc prep exe site, oshift O u i c bs = (w, Ok (ch, (enc, prep, exe), site)) /\
    ((mvt_of s' i <= t + prep)%Q ->
     (forall u2 w2 ch2 enc2 prep2 exe2 site2, oshift O u2 i (CChunk ch) bs = (w2, Ok (ch2, (enc2, prep2, exe2), site2)) -> (enc2 <= enc)%Q) ->
     forall e, In e (events tr ++ events tr') -> is_seen e = true -> (roundtime t <= etime e <= roundtime (t + enc))%Z).
Proof.
  intros K H H'. destruct (shift_phases _ _ _ _ _ _ _ _ K H H') as (u & w & ch & enc & prep & exe & site & Eo & X).
  exists u, w, ch, enc, prep, exe, site. split; [exact Eo|]. intros M A e Hin He.
  pose proof (SO _ _ _ _ _ _ _ _ _ _ Eo) as (N1 & N2 & N3). apply Qle_bool_iff in M. rewrite M in X. cbv zeta in X.
  assert (D : forall x, (0 <= x <= enc)%Q -> (roundtime t <= roundtime (t + x) <= roundtime (t + enc))%Z).
  { intros x [L1 L2]. split; apply roundtime_mono; lra. }
  assert (F : forall l, (forall e, In e l -> is_seen e = true -> (roundtime t <= etime e <= roundtime (t + enc))%Z) -> In e l -> (roundtime t <= etime e <= roundtime (t + enc))%Z) by auto.
  destruct X as (early & mid & late & E1 & E2 & X1 & X2 & X3). rewrite E1, E2 in Hin. clear E1 E2.
  destruct (Qlt_le_dec prep enc) as [Q1|Q1]; [destruct (Qlt_le_dec (prep + exe) enc) as [Q2|Q2]|].
  - destruct (X3 Q2) as (-> & -> & u2 & w2 & ch2 & enc2 & prep2 & exe2 & site2 & Eo2 & ->).
    pose proof (SO _ _ _ _ _ _ _ _ _ _ Eo2) as (M1 & _). pose proof (A _ _ _ _ _ _ _ Eo2) as M2.
    assert (S : (0 <= (1 - (prep + exe) / enc) * enc2)%Q) by (apply share; lra).
    assert (S2 : ((1 - (prep + exe) / enc) * enc2 <= enc - (prep + exe))%Q).
    { assert (S3 : (0 <= (1 - (prep + exe) / enc) * (enc - enc2))%Q) by (apply share; lra).
      assert (S4 : ((1 - (prep + exe) / enc) * enc == enc - (prep + exe))%Q) by (field; lra). lra. }
    unfold seen in Hin. rewrite (roundtime_ext (t + prep + exe + (1 - (prep + exe) / enc) * enc2) (t + (prep + exe + (1 - (prep + exe) / enc) * enc2))) in Hin by lra.
    cbn in Hin. decompose [or] Hin; clear Hin; subst; try discriminate; try contradiction. cbn. apply D. lra.
  - destruct (X2 (conj Q1 Q2)) as (-> & -> & ->). cbn in Hin. decompose [or] Hin; clear Hin; subst; try discriminate; try contradiction. cbn. apply D. lra.
  - destruct (X1 Q1) as (-> & -> & ->). cbn in Hin. decompose [or] Hin; clear Hin; subst; try discriminate; try contradiction. cbn. apply D. lra.
Qed.
End Phases.
