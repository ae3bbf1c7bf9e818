(** Proofs about key presses (C39, C40). *)
From Coq Require Import Sorted Lqa.
From Verif Require Import Base BaseFacts Chunks TypeFacts ChunkMatch ResolveFacts SplitFacts RoundFacts DecMem Buffers BufferFacts ModifyFacts Productions ProdSpec CycleFacts EffectFacts MotorSpec.
From Verif Require Import ChunkSpec.
Local Open Scope string_scope.

(** ** Keys *)

Lemma known_iff x : known_key x <-> smem x LEFT_HAND = true \/ smem x RIGHT_HAND = true.
Proof. unfold known_key. rewrite !smem_In. reflexivity. Qed.

Lemma press_table k : durations (vv_str k) (pprep (press_times k)) (pinit (press_times k)) (pexec (press_times k)) (pfinish (press_times k)).
Proof.
  unfold press_times. destruct (smem (vv_str k) SLOWEST) eqn:A; [apply dur_far; apply smem_In; exact A|].
  destruct (smem (vv_str k) PRESSING) eqn:B; [apply dur_home; apply smem_In; exact B|].
  apply dur_other; intros H; apply smem_In in H.
  - unfold PRESSING in B. unfold home_keys in H. congruence.
  - unfold SLOWEST in A. unfold far_keys in H. congruence.
Qed.
Lemma durations_pos x a b c d : durations x a b c d -> ((15 # 100 <= a)%Q /\ 0 <= b /\ 0 <= c /\ 0 <= d)%Q.
Proof. destruct 1; repeat split; discriminate. Qed.

Lemma preparation_range pr l k : (0 <= preparation pr l k <= pprep (press_times k))%Q.
Proof.
  pose proof (durations_pos _ _ _ _ _ (press_table k)) as (H & _). unfold preparation. cbv zeta.
  destruct (_ || pr)%bool; [split; [discriminate|lra]|]. destruct l as [l|]; [|split; lra]. cbn. split; lra.
Qed.

(** ** Requests *)

Lemma create_inv r o bs r' k : motor_create r o bs = Ok (r', k) ->
  exists args r1 c1 y txt c2, resolve_slots bs true (removeunused o) = Ok args /\ mk_chunk r "_manual" args = Ok (r1, c1) /\
    dget (cslots c1) "key" = Some (Some y) /\ vvals y = VStr txt /\
    mk_chunk r1 "_manual" (dset args "key" (RStr (upper txt))) = Ok (r', c2) /\ dget (cslots c2) "key" = Some (Some k) /\
    (smem (upper txt) LEFT_HAND = true \/ exists v, vvals k = VStr v /\ smem v RIGHT_HAND = true).
Proof.
  unfold motor_create. intros E.
  destruct (resolve_slots bs true (removeunused o)) as [args|]; [|discriminate]. cbn [rbind] in E.
  destruct (mk_chunk r "_manual" args) as [[r1 c1]|] eqn:M; [|discriminate]. cbn [rbind] in E.
  destruct (dget (cslots c1) "cmd") as [[cmd|]|]; try discriminate. destruct (vvals cmd) as [| |x|]; try discriminate.
  repeat match type of E with match ?z with _ => _ end = _ => is_var z; destruct z; try discriminate end.
  destruct (dget (cslots c1) "key") as [[y|]|] eqn:K; try discriminate. destruct (vvals y) as [| |txt|] eqn:V; try discriminate. cbv zeta in E.
  destruct (mk_chunk r1 "_manual" (dset args "key" (RStr (upper txt)))) as [[r2 c2]|] eqn:M2; [|discriminate]. cbn [rbind] in E.
  destruct (dget (cslots c2) "key") as [[k2|]|] eqn:K2; try discriminate.
  exists args, r1, c1, y, txt, c2. destruct (smem (upper txt) LEFT_HAND) eqn:L.
  - injection E as <- <-. auto 10.
  - destruct (vvals k2) as [| |v|] eqn:V2; try discriminate. destruct (smem v RIGHT_HAND) eqn:Rr; [|discriminate].
    injection E as <- <-. rewrite M2. eauto 12.
Qed.

Lemma split_key x : In x left_keys \/ In x right_keys -> stringsplitting x = Ok (key_of x).
Proof.
  intros H. assert (P : plain_text x). 2:{ apply split_plain. exact P. }
  assert (A : Forall plain_text left_keys /\ Forall plain_text right_keys).
  { split; repeat constructor; discriminate. }
  destruct A as [A B]. rewrite Forall_forall in A, B. destruct H; auto.
Qed.

Lemma create_known r o bs r' k : motor_create r o bs = Ok (r', k) -> exists v, vvals k = VStr v /\ known_key v.
Proof.
  intros H. destruct (create_inv _ _ _ _ _ H) as (args & r1 & c1 & y & txt & c2 & _ & _ & _ & _ & M2 & K & [L|(v & V & Rr)]).
  - exists (upper txt). apply mk_chunk_spec in M2. destruct M2 as (_ & M2 & _).
    destruct (M2 "key" (RStr (upper txt))) as (w & C & D); [apply dget_dset_eq|]. rewrite K in D. injection D as <-.
    apply smem_In in L. cbn in C. rewrite (split_key _ (or_introl L)) in C. injection C as <-. split; [reflexivity|left; exact L].
  - exists v. split; [exact V|]. apply smem_In in Rr. right. exact Rr.
Qed.

Lemma upper_char_plain c : c <> "~"%char /\ c <> "!"%char /\ c <> "="%char -> upper_char c <> "~"%char /\ upper_char c <> "!"%char /\ upper_char c <> "="%char.
Proof.
  intros H. destruct c as [[] [] [] [] [] [] [] []]; vm_compute; repeat split; try discriminate; exfalso; destruct H as (H1 & H2 & H3); congruence.
Qed.
Lemma upper_plain x : plain_text x -> plain_text (upper x).
Proof.
  induction x as [|c x IH]; [auto|]. cbn [plain_text upper]. intros (A & B & C & D).
  destruct (upper_char_plain c (conj A (conj B C))) as (A' & B' & C'). auto.
Qed.

(** A request for the key [y]. *)
Definition asks (o : chunk) (bs : bindings) (y : string) : Prop :=
  names_distinct o /\ NoDup (dkeys (bpos bs)) /\ marks_free bs o /\ plain_text y /\
  exists w, mentions o "key" w /\ forall v, ResolveFacts.positive bs w v -> v = VStr y.

Lemma create_asked r o bs r' k y : asks o bs y -> motor_create r o bs = Ok (r', k) -> k = key_of (upper y) /\ known_key (upper y).
Proof.
  intros (No & nd & nm & P & w & Mw & U) H.
  destruct (create_known _ _ _ _ _ H) as (v & V & Kv).
  destruct (create_inv _ _ _ _ _ H) as (args & r1 & c1 & z & txt & c2 & Rs & M1 & Kz & Vz & M2 & K & _).
  destruct (resolve_get bs true o args No nd nm Rs) as (R1 & _). destruct (R1 _ _ Mw) as (q & Eq & (Pq & _) & _).
  apply mk_chunk_spec in M1. destruct M1 as (_ & M1 & _). destruct (M1 _ _ Eq) as (q' & C & D). cbn in C. injection C as <-.
  rewrite Kz in D. injection D as ->. apply U in Pq. rewrite Vz in Pq. injection Pq as ->.
  apply mk_chunk_spec in M2. destruct M2 as (_ & M2 & _).
  destruct (M2 "key" (RStr (upper y))) as (q' & C & D); [apply dget_dset_eq|]. rewrite K in D. injection D as <-.
  cbn in C. rewrite (split_plain _ (upper_plain _ P)) in C. injection C as <-. split; [reflexivity|].
  cbn in V. injection V as ->. exact Kv.
Qed.

(** ** Phases *)

Section Phases.
Variables (R : st -> st -> Prop) (O : oracle) (name : string) (i : nat).
Local Notation E t x := (MkEv (roundtime t) name (WText x)).

Lemma state_mlast s x : mlast_of (set_state i x s) i = mlast_of s i.
Proof.
  unfold mlast_of, set_state, set_attrs. destruct (nth_error (smods s) i) as [m|] eqn:N; [|rewrite N; reflexivity].
  cbn. rewrite (upd_same _ _ _ m) by exact N. reflexivity.
Qed.
Lemma state_prep s x : sprep (set_state i x s) = sprep s /\ sw (set_state i x s) = sw s.
Proof. unfold set_state, set_attrs. destruct (nth_error (smods s) i); auto. Qed.

Lemma request_runs c bs t s tr f : of_kind (sw s) i KMotor -> runs R (start O MRetrieve name i c bs t) s tr f ->
  events tr <> [] \/ (exists g, f = FCont g) ->
  exists o r' k, c = CChunk o /\ motor_create (wreg (sw s)) o bs = Ok (r', k) /\
    let p := preparation (sprep s) (fst (mlast_of s i)) k in
    (exists n, events tr = firstn n [E t "COMMAND: press_key"; E (t + p) "PREPARATION COMPLETE"]) /\
    forall g, f = FCont g -> g = g_motorcont name i k (t + p) (press_times k) /\
      events tr = [E t "COMMAND: press_key"; E (t + p) "PREPARATION COMPLETE"].
Proof.
  intros (b & Eb & Kb) H NE. cbn [start] in H. unfold g_request in H.
  destruct (resume (GAct (set_state i "busy") (GGet (fun s => match nth_error (bufs (sw s)) i with
    | None => GRaise EAttr | Some b => match bkind b with | KGoal => g_setgoal name i c bs t | KLocation => g_find O name i c bs t
       | KVisual => g_visual O name i c bs t | KMotor => g_motor name i c bs t | KRetrieval => g_retrieve O name i c bs t end end))) s) as [[s' ns] oo] eqn:Er.
  pose proof (run_step _ _ _ _ _ H _ _ _ Er) as Hs. cbn [resume] in Er. rewrite (proj2 (state_prep s "busy")), Eb, Kb in Er.
  unfold g_motor in Er. destruct c as [o| | |]; try (cbn in Er; injection Er as <- <- <-; exfalso; destruct Hs as [[-> ->]|[-> ->]]; destruct NE as [X|[g X]]; [apply X; reflexivity|discriminate X|apply X; reflexivity|discriminate X]).
  unfold gcall in Er. cbn [resume] in Er. rewrite (proj2 (state_prep s "busy")) in Er.
  destruct (motor_create (wreg (sw s)) o bs) as [[r' k]|e] eqn:M.
  2:{ cbn in Er. injection Er as <- <- <-; exfalso; destruct Hs as [[-> ->]|[-> ->]]; destruct NE as [X|[g X]]; [apply X; reflexivity|discriminate X|apply X; reflexivity|discriminate X]. }
  exists o, r', k. split; [reflexivity|]. split; [exact M|]. cbv zeta.
  cbn [resume] in Er. change (sprep (set_w (set_reg (sw s) r') (set_state i "busy" s))) with (sprep (set_state i "busy" s)) in Er.
  change (mlast_of (set_w (set_reg (sw s) r') (set_state i "busy" s)) i) with (mlast_of (set_state i "busy" s) i) in Er.
  rewrite state_mlast, (proj1 (state_prep s "busy")) in Er. set (p := preparation (sprep s) (fst (mlast_of s i)) k) in *.
  injection Er as <- <- <-. clear M NE.
  destruct Hs as [[-> ->]|(s1 & tr1 & -> & _ & H1)]; [split; [exists 0%nat; reflexivity|discriminate]|].
  step_of H1 E1. destruct (run_step _ _ _ _ _ H1 _ _ _ E1) as [[-> ->]|(s2 & tr2 & -> & _ & H2)]; [split; [exists 1%nat; reflexivity|discriminate]|].
  step_of H2 E2. destruct (run_step _ _ _ _ _ H2 _ _ _ E2) as [[-> ->]|[-> ->]]; [split; [exists 2%nat; reflexivity|discriminate]|].
  split; [exists 2%nat; reflexivity|]. intros g [= <-]. split; reflexivity.
Qed.

Lemma press_runs k t q s tr f : runs R (g_motorcont name i k t q) s tr f ->
  let t0 := if Qeq_bool (snd (mlast_of s i)) 0 then t else snd (mlast_of s i) in
  let all := [E (t0 + pinit q) "INITIATION COMPLETE"; MkEv (roundtime (t0 + pinit q + pexec q)) name WUnknown;
              E (t0 + pinit q + pexec q) ("KEY PRESSED: " ++ vv_str k);
              E (t0 + pinit q + pexec q + pfinish q) "MOVEMENT FINISHED"] in
  (exists n, events tr = firstn n all) /\ (f = FDone -> events tr = all) /\ (f = FDone \/ f = FCut) /\
  (forall h tr1, tr = h :: tr1 -> (i < List.length (smods s))%nat -> mlast_of (hafter h) i = (Some k, t0 + pinit q + pexec q + pfinish q)%Q) /\
  (forall h u, In h tr -> In u (skeys (hafter h)) -> In u (skeys (hbefore h)) \/ u = vvals k) /\
  (forall h n, In h tr -> hevent h = Some (MkEv n name (WText ("KEY PRESSED: " ++ vv_str k))) ->
     exists u, In u (skeys (hafter h)) /\ key_eqb u (vvals k) = true).
Proof.
  intros H t0 all.
  assert (KA : forall l x, skeys (set_attrs i l x) = skeys x) by (intros l x; unfold set_attrs; destruct (nth_error _ _); reflexivity).
  assert (KL : forall l x, skeys (set_mlast i l x) = skeys x) by (intros l x; unfold set_mlast; destruct (nth_error _ _); reflexivity).
  assert (KM : forall l q1 q2, (i < List.length (smods s))%nat -> mlast_of (set_mlast i q1 (set_attrs i l (set_attrs i q2 s))) i = q1 /\
    mlast_of (set_mlast i q1 (set_attrs i l s)) i = q1).
  { intros l q1 q2 L. assert (X : forall x, (i < List.length (smods x))%nat -> mlast_of (set_mlast i q1 x) i = q1).
    { intros x Lx. unfold mlast_of, set_mlast. destruct (nth_error (smods x) i) as [m|] eqn:N; [|apply nth_error_None in N; lia].
      cbn. rewrite (upd_same _ _ _ m) by exact N. reflexivity. }
    assert (Y : forall l x, List.length (smods (set_attrs i l x)) = List.length (smods x)).
    { intros l0 x. unfold set_attrs. destruct (nth_error (smods x) i); [cbn; apply upd_length|reflexivity]. }
    split; apply X; rewrite ?Y; exact L. }
  unfold g_motorcont in H. step_of H Er. fold t0 in Er.
  destruct (run_step _ _ _ _ _ H _ _ _ Er) as [[-> ->]|(s1 & tr1 & -> & _ & H1)]; clear H Er.
  { split; [exists 0%nat; reflexivity|]. split; [discriminate|]. split; [auto|]. split; [discriminate|]. split; intros h ? []. }
  step_of H1 E1. destruct (run_step _ _ _ _ _ H1 _ _ _ E1) as [[-> ->]|(s2 & tr2 & -> & _ & H2)]; clear H1 E1.
  { split; [exists 1%nat; reflexivity|]. split; [discriminate|]. split; [auto|]. split; [intros h tr0 [= <- _] L; apply (KM _ _ []); exact L|]. split.
    - intros h u [<-|[]]. cbn [hbefore hafter]. rewrite KL, KA. auto.
    - intros h n [<-|[]]. discriminate. }
  step_of H2 E2. destruct (run_step _ _ _ _ _ H2 _ _ _ E2) as [[-> ->]|(s3 & tr3 & -> & _ & H3)]; clear H2 E2.
  { split; [exists 2%nat; reflexivity|]. split; [discriminate|]. split; [auto|]. split; [intros h tr0 [= <- _] L; apply (KM _ _ []); exact L|]. split.
    - intros h u [<-|[<-|[]]]; cbn [hbefore hafter]; rewrite ?KL, KA; auto.
    - intros h n [<-|[<-|[]]]; discriminate. }
  step_of H3 E3. destruct (run_step _ _ _ _ _ H3 _ _ _ E3) as [[-> ->]|(s4 & tr4 & -> & _ & H4)]; clear H3 E3.
  { split; [exists 3%nat; reflexivity|]. split; [discriminate|]. split; [auto|]. split; [intros h tr0 [= <- _] L; apply (KM _ _ []); exact L|]. split.
    - intros h u [<-|[<-|[<-|[]]]]; cbn [hbefore hafter set_keys skeys]; rewrite ?KL, ?KA; auto. apply set_add_inv.
    - intros h n [<-|[<-|[<-|[]]]]; try discriminate. intros _. apply set_add_has. }
  step_of H4 E4. destruct (run_step _ _ _ _ _ H4 _ _ _ E4) as [[-> ->]|[-> ->]]; clear H4 E4.
  { split; [exists 4%nat; reflexivity|]. split; [discriminate|]. split; [auto|]. split; [intros h tr0 [= <- _] L; apply (KM _ _ []); exact L|]. split.
    - intros h u [<-|[<-|[<-|[<-|[]]]]]; cbn [hbefore hafter set_keys skeys]; rewrite ?KL, ?KA; auto. apply set_add_inv.
    - intros h n [<-|[<-|[<-|[<-|[]]]]]; try discriminate. intros _. apply set_add_has. }
  split; [exists 4%nat; reflexivity|]. split; [reflexivity|]. split; [auto|]. split; [intros h tr0 [= <- _] L; apply (KM _ _ []); exact L|]. split.
  - intros h u [<-|[<-|[<-|[<-|[<-|[]]]]]]; cbn [hbefore hafter set_keys skeys]; rewrite ?KL, ?KA; auto. apply set_add_inv.
  - intros h n [<-|[<-|[<-|[<-|[<-|[]]]]]]; try discriminate. intros _. apply set_add_has.
Qed.
End Phases.
(** ** Statements *)

Lemma known_keys R O name i c bs t s tr g s' tr' f : of_kind (sw s) i KMotor ->
  runs R (start O MRetrieve name i c bs t) s tr (FCont g) -> runs R g s' tr' f ->
  exists v, known_key v /\ forall h u, In h tr' -> In u (skeys (hafter h)) -> In u (skeys (hbefore h)) \/ u = VStr v.
Proof.
  intros K H H'. destruct (request_runs _ _ _ _ _ _ _ _ _ _ K H) as (o & r' & k & -> & M & _ & G); [eauto|].
  destruct (G _ eq_refl) as [-> _]. destruct (create_known _ _ _ _ _ M) as (v & V & Kv).
  destruct (press_runs _ _ _ _ _ _ _ _ _ H') as (_ & _ & _ & _ & P & _). exists v. split; [exact Kv|]. intros h u Hh Hu.
  rewrite <- V. apply (P h u Hh Hu).
Qed.

Lemma only_known R O name i o bs t s tr f y : of_kind (sw s) i KMotor -> asks o bs y ->
  runs R (start O MRetrieve name i (CChunk o) bs t) s tr f -> ~ known_key (upper y) -> events tr = [] /\ forall g, f <> FCont g.
Proof.
  intros K A H N.
  assert (X : ~ (events tr <> [] \/ exists g, f = FCont g)).
  { intros X. destruct (request_runs _ _ _ _ _ _ _ _ _ _ K H X) as (o' & r' & k & [= <-] & M & _).
    apply N. eapply create_asked; eassumption. }
  split; [destruct (events tr); [reflexivity|exfalso; apply X; left; discriminate]|]. intros g ->. apply X. eauto.
Qed.

Lemma append_nil (x : string) : (x ++ "")%string = x.
Proof. induction x as [|c x IH]; [reflexivity|]. cbn. rewrite IH. reflexivity. Qed.
Lemma str_key x : vv_str (key_of x) = x.
Proof. destruct x as [|c x]; [reflexivity|]. unfold vv_str. cbn. rewrite append_nil. reflexivity. Qed.
Lemma eqb_key a b : vv_eqb (key_of a) (key_of b) = String.eqb a b.
Proof. unfold vv_eqb, key_of. cbn. destruct (String.eqb a b); reflexivity. Qed.

Lemma phases R O name i c bs t s tr g s' tr' : of_kind (sw s) i KMotor ->
  runs R (start O MRetrieve name i c bs t) s tr (FCont g) -> runs R g s' tr' FDone ->
  exists x full prep d1 d2 d3 t0, durations x full d1 d2 d3 /\ (0 <= prep <= full)%Q /\
    (t0 = if Qeq_bool (snd (mlast_of s' i)) 0 then t + prep else snd (mlast_of s' i))%Q /\
    events tr = [MkEv (roundtime t) name (WText "COMMAND: press_key");
                 MkEv (roundtime (t + prep)) name (WText "PREPARATION COMPLETE")] /\
    events tr' = [MkEv (roundtime (t0 + d1)) name (WText "INITIATION COMPLETE");
                  MkEv (roundtime (t0 + d1 + d2)) name WUnknown;
                  MkEv (roundtime (t0 + d1 + d2)) name (WText ("KEY PRESSED: " ++ x));
                  MkEv (roundtime (t0 + d1 + d2 + d3)) name (WText "MOVEMENT FINISHED")] /\
    ((t + prep <= t0)%Q -> Sorted Z.le (map etime (events tr ++ events tr'))) /\
    forall o y, c = CChunk o -> asks o bs y -> x = upper y /\ known_key x.
Proof.
  intros K H H'. destruct (request_runs _ _ _ _ _ _ _ _ _ _ K H) as (o & r' & k & -> & M & _ & G); [eauto|].
  destruct (G _ eq_refl) as [-> Ev]. destruct (press_runs _ _ _ _ _ _ _ _ _ H') as (_ & D & _).
  set (p := preparation (sprep s) (fst (mlast_of s i)) k) in *. pose proof (press_table k) as T.
  pose proof (preparation_range (sprep s) (fst (mlast_of s i)) k) as Rp. fold p in Rp.
  exists (vv_str k), (pprep (press_times k)), p, (pinit (press_times k)), (pexec (press_times k)), (pfinish (press_times k)), (if Qeq_bool (snd (mlast_of s' i)) 0 then t + p else snd (mlast_of s' i))%Q.
  split; [exact T|]. split; [exact Rp|]. split; [reflexivity|]. split; [exact Ev|]. split; [exact (D eq_refl)|]. split.
  - intros L. rewrite Ev, (D eq_refl). apply durations_pos in T. destruct T as (T1 & T2 & T3 & T4).
    cbn [map app etime]. repeat (apply Sorted_cons; [|first [apply HdRel_nil|apply HdRel_cons; apply roundtime_mono; lra]]). apply Sorted_nil.
  - intros o' y [= <-] A. destruct (create_asked _ _ _ _ _ _ A M) as [-> Ky]. rewrite str_key. auto.
Qed.

Lemma firstn_In' {A} n (l : list A) x : In x (firstn n l) -> In x l.
Proof. intros H. rewrite <- (firstn_skipn n l). apply in_or_app. auto. Qed.

Lemma waits R O name i c1 bs1 t1 s1 tr1 g1 u1 h r1 f1 c2 bs2 t2 s2 tr2 g2 u2 r2 f2 :
  of_kind (sw s1) i KMotor -> runs R (start O MRetrieve name i c1 bs1 t1) s1 tr1 (FCont g1) ->
  of_kind (sw s2) i KMotor -> runs R (start O MRetrieve name i c2 bs2 t2) s2 tr2 (FCont g2) ->
  runs R g1 u1 (h :: r1) f1 -> runs R g2 u2 r2 f2 ->
  (0 <= t1)%Q -> (0 <= snd (mlast_of u1 i))%Q -> (i < List.length (smods u1))%nat ->
  mlast_of u2 i = mlast_of (hafter h) i ->
  forall e1 e2, In e1 (events (h :: r1)) -> In e2 (events r2) -> (etime e1 <= etime e2)%Z.
Proof.
  intros K1 H1 K2 H2 G1 G2 T1 U1 L E e1 e2 I1 I2.
  destruct (request_runs _ _ _ _ _ _ _ _ _ _ K1 H1) as (o & r' & k & -> & M & _ & G); [eauto|]. destruct (G _ eq_refl) as [-> _]. clear G H1 M.
  destruct (request_runs _ _ _ _ _ _ _ _ _ _ K2 H2) as (o2 & r2' & k2 & -> & M & _ & G); [eauto|]. destruct (G _ eq_refl) as [-> _]. clear G H2 M.
  pose proof (preparation_range (sprep s1) (fst (mlast_of s1 i)) k) as Rp.
  destruct (press_runs _ _ _ _ _ _ _ _ _ G1) as ([n1 N1] & _ & _ & P1 & _). destruct (press_runs _ _ _ _ _ _ _ _ _ G2) as ([n2 N2] & _).
  rewrite E, (P1 _ _ eq_refl L) in N2. cbn [snd] in N2.
  set (p := preparation (sprep s1) (fst (mlast_of s1 i)) k) in *.
  set (t0 := (if Qeq_bool (snd (mlast_of u1 i)) 0 then t1 + p else snd (mlast_of u1 i))%Q) in *.
  assert (Z0 : (0 <= t0)%Q) by (unfold t0; destruct (Qeq_bool _ 0); lra).
  pose proof (press_table k) as D1. pose proof (press_table k2) as D2.
  assert (Di : (pinit (press_times k) == 5 # 100)%Q) by (destruct D1; reflexivity).
  apply durations_pos in D1. apply durations_pos in D2. destruct D1 as (A1 & A2 & A3 & A4). destruct D2 as (B1 & B2 & B3 & B4).
  set (t3 := (t0 + pinit (press_times k) + pexec (press_times k) + pfinish (press_times k))%Q) in *.
  assert (NZ : Qeq_bool t3 0 = false).
  { destruct (Qeq_bool t3 0) eqn:Q; [|reflexivity]. apply Qeq_bool_iff in Q. unfold t3 in Q. lra. }
  rewrite NZ in N2. rewrite N1 in I1. rewrite N2 in I2. apply firstn_In' in I1, I2.
  assert (X1 : (etime e1 <= roundtime t3)%Z).
  { cbn [In] in I1. destruct I1 as [<-|[<-|[<-|[<-|[]]]]]; cbn [etime]; apply roundtime_mono; unfold t3; lra. }
  assert (X2 : (roundtime t3 <= etime e2)%Z).
  { cbn [In] in I2. destruct I2 as [<-|[<-|[<-|[<-|[]]]]]; cbn [etime]; apply roundtime_mono; lra. }
  lia.
Qed.

(** ** Preparation *)

Lemma prep_eq (e : event) t d d' name x : (d == d')%Q -> [e; MkEv (roundtime (t + d)) name x] = [e; MkEv (roundtime (t + d')) name x].
Proof. intros H. rewrite (roundtime_ext (t + d) (t + d')); [reflexivity|]. rewrite H. reflexivity. Qed.
Lemma prep_always R O name i o bs t s tr g y l : of_kind (sw s) i KMotor -> asks o bs y -> sprep s = false ->
  fst (mlast_of s i) = Some (key_of l) -> l <> upper y ->
  runs R (start O MRetrieve name i (CChunk o) bs t) s tr (FCont g) ->
  forall full d1 d2 d3, durations (upper y) full d1 d2 d3 ->
    events tr = [MkEv (roundtime t) name (WText "COMMAND: press_key"); MkEv (roundtime (t + (full - (1 # 10)))) name (WText "PREPARATION COMPLETE")].
Proof.
  intros K A Ps Ls Ne H full d1 d2 d3 D. destruct (request_runs _ _ _ _ _ _ _ _ _ _ K H) as (o' & r' & k & [= <-] & M & _ & G); [eauto|].
  destruct (create_asked _ _ _ _ _ _ A M) as [-> Ky]. destruct (G _ eq_refl) as [_ ->].
  rewrite Ps, Ls. unfold preparation. rewrite eqb_key. cbv zeta. destruct (String.eqb_spec (upper y) l) as [X|_]; [congruence|]. cbn [orb].
  pose proof (press_table (key_of (upper y))) as T. rewrite str_key in T.
  assert (F : (pprep (press_times (key_of (upper y))) == full)%Q).
  { destruct D, T; try reflexivity; try contradiction; exfalso;
      repeat match goal with H : In _ home_keys |- _ => revert H | H : In _ far_keys |- _ => revert H end; cbn; intuition congruence. }
  cbn [vv_in Bool.eqb]. apply prep_eq. rewrite F. reflexivity.
Qed.

Lemma prep_ok R O name i o bs t s tr g y (prev : option string) : of_kind (sw s) i KMotor -> asks o bs y -> sprep s = false ->
  fst (mlast_of s i) = match prev with Some l => Some (key_of l) | None => None end ->
  (forall l, prev = Some l -> l <> upper y -> same_move (upper y) l /\ same_hand (upper y) l) ->
  runs R (start O MRetrieve name i (CChunk o) bs t) s tr (FCont g) ->
  forall full d1 d2 d3, durations (upper y) full d1 d2 d3 -> exists d, prepares (upper y) full prev d /\
    events tr = [MkEv (roundtime t) name (WText "COMMAND: press_key"); MkEv (roundtime (t + d)) name (WText "PREPARATION COMPLETE")].
Proof.
  intros K A Ps Ls Sm H full d1 d2 d3 D. destruct prev as [l|].
  - destruct (string_dec l (upper y)) as [->|Ne].
    + exists 0%Q. split; [apply prep_same|].
      destruct (request_runs _ _ _ _ _ _ _ _ _ _ K H) as (o' & r' & k & [= <-] & M & _ & G); [eauto|].
      destruct (create_asked _ _ _ _ _ _ A M) as [-> Ky]. destruct (G _ eq_refl) as [_ ->].
      rewrite Ls. unfold preparation. rewrite eqb_key, String.eqb_refl. reflexivity.
    + destruct (Sm _ eq_refl Ne) as [S1 S2]. exists (full - (10 # 100))%Q. split; [apply prep_hand; assumption|].
      rewrite (prep_always _ _ _ _ _ _ _ _ _ _ _ _ K A Ps Ls Ne H _ _ _ _ D). apply prep_eq. lra.
  - exists full. split; [apply prep_first|].
    destruct (request_runs _ _ _ _ _ _ _ _ _ _ K H) as (o' & r' & k & [= <-] & M & _ & G); [eauto|].
    destruct (create_asked _ _ _ _ _ _ A M) as [-> Ky]. destruct (G _ eq_refl) as [_ ->].
    rewrite Ls, Ps. unfold preparation. cbn [orb]. cbv zeta.
    pose proof (press_table (key_of (upper y))) as T. rewrite str_key in T.
    apply prep_eq.
    destruct D, T; try reflexivity; try contradiction; exfalso;
      repeat match goal with H : In _ home_keys |- _ => revert H | H : In _ far_keys |- _ => revert H end; cbn; intuition congruence.
Qed.
