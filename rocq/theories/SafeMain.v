(** What process 0 does to the scheduling of a simulation without environment. *)
From Coq Require Import Lia Sorted.
From Verif Require Import Base BaseFacts Chunks DecMem Buffers BufferFacts Productions ProdSpec LearnFacts Sim SimFacts RunFacts LiftFacts SafeSpec RequestFacts QueueFacts SafeFacts SafeSteps.
Local Open Scope string_scope.
Local Open Scope list_scope.
Local Open Scope nat_scope.

Lemma hits_main W a S : Sem W a S -> hits 0 S = 0.
Proof. intros H. destruct (s_main _ _ _ H) as (r & A & B). apply (hits_hard _ _ _ _ _ H A). intros q C. destruct (pcode r); contradiction. Qed.
Lemma main_ext W a S n : Sem W a S -> dget (extras S) n <> Some 0.
Proof. intros H E. destruct (s_main _ _ _ H) as (r & A & B). destruct (s_ext _ _ _ H n 0 E) as (x & ? & C & D & _). assert (x = r) by congruence. subst x. destruct (pcode r); contradiction. Qed.
Lemma main_who W a S p r : Que a S -> Sem W a S -> proc_at p S = Some r -> p <> 0 -> ~ mcode (pcode r).
Proof. intros Q H Hp N Hm. pose proof (q_who _ _ Q p r Hp) as Wr. destruct (pcode r); try contradiction; cbn in Wr; congruence. Qed.

(** ** The rules are started *)

Lemma go_rules O k f S : (match k with KProc0 => f = true | KProcZero 0 => f = false | _ => False end) -> forall v,
  go_on O 0 k (Good v) S = (spawned (KLocal0 true PROCEDURAL (procedural O (seconds_of (now S)))) S, inl (NWait (KProcPro f) (List.length (evs S)))).
Proof.
  intros Hk v. assert (E : forall f, (let! S := get in let! pro := spawn (KLocal0 true PROCEDURAL (procedural O (seconds_of (now S)))) in wait_for (KProcPro f) pro) S =
    (spawned (KLocal0 true PROCEDURAL (procedural O (seconds_of (now S)))) S, inl (NWait (KProcPro f) (List.length (evs S))))).
  { intros f0. unfold bind, get. rewrite spawn_eq. unfold wait_for, bind, get, ret, own_event. change (nth_error (prs ?x) ?y) with (proc_at y x). rewrite pat_spawned, Nat.eqb_refl. reflexivity. }
  destruct k as [| | |[|k]| | | | | | | | | | |]; try contradiction; subst f; apply E.
Qed.
Lemma main_rules W f r t O S : Rest S -> Que (Some 0) S -> Sem W (Some 0) S -> (forall n, ~ W n) -> proc_at 0 S = Some r -> nochief S -> (forall n, tight (Some 0) n S -> cnt n S = 0) ->
  (forall l, early S = Some l -> f = true) ->
  Lands 0 (spawned (KLocal0 true PROCEDURAL (procedural O t)) S, inl (NWait (KProcPro f) (List.length (evs S)))).
Proof.
  intros R Q H NW Hp Nc Ht Hf. cbn [Lands]. set (g := procedural O t). set (pro := List.length (prs S)). set (ev := List.length (evs S)). set (S1 := spawned (KLocal0 true PROCEDURAL g) S).
  assert (Q1 : Que (Some 0) S1) by (apply Que_spawned; auto; [intros p [= <-]; exact (pat_old _ _ _ Hp)|exact I|discriminate]).
  assert (H1 : Sem W (Some 0) S1) by (apply Sem_spawned; auto).
  assert (Hp1 : proc_at 0 S1 = Some r) by (apply pat_spawned_old; exact Hp).
  set (e := MkEvt (ROwn pro) None false (Some [])).
  assert (He : event_at ev S1 = Some e) by (unfold S1; rewrite at_spawned; fold ev; rewrite Nat.eqb_refl; destruct (Nat.eqb_spec ev (Datatypes.S ev)); [lia|reflexivity]).
  assert (N0 : pro <> 0) by (pose proof (pat_old _ _ _ Hp); unfold pro; lia).
  assert (Pn : proc_at pro S1 = Some (MkPrc (Some (GLocal true PROCEDURAL)) ev (Datatypes.S ev) (KLocal0 true PROCEDURAL g))) by (unfold S1; rewrite pat_spawned; fold pro; rewrite Nat.eqb_refl; reflexivity).
  set (c := KProcPro f).
  apply (Ok_parked 0 r c ev e S1 Q1 Hp1 He); [exact R|reflexivity|discriminate|reflexivity|exists pro; reflexivity| |].
  - apply (Sem_parked W _ 0 r c ev e S1 Q1 H1 Hp1 He).
    + intros _. exact I.
    + intros n E. elim (main_ext _ _ _ n H E).
    + left. exact (hits_main _ _ _ H1).
    + exact I.
    + intros n [].
    + intros l El. split; [intros _; right; unfold c; rewrite (Hf l El); reflexivity|intros n []].
    + intros _ q x Hx Nq Hk. exists f. split; [reflexivity|]. unfold S1 in Hx. rewrite pat_spawned in Hx. destruct (Nat.eqb_spec q (List.length (prs S))) as [E|N]; [|elim (Nc q x Hx Hk)]. injection Hx as <-. reflexivity.
    + discriminate.
    + intros n Wn. elim (NW n Wn).
  - exists (MkPrc (pkind r) (pown r) ev c). rewrite (pat_parked 0 r c ev e S1 Hp1). split; [reflexivity|]. cbn [pcode c ptarget]. exists pro. eexists.
    rewrite (pat_parked 0 r c ev e S1 Hp1). destruct (Nat.eqb_spec pro 0) as [|_]; [contradiction|]. split; [exact Pn|]. split; [reflexivity|]. cbn [pcode].
    exists false, (fun _ => True). split; [discriminate|]. split; [intros s2 _ _; apply procedural_modest|]. intros n Tn.
    assert (Z : cnt n S = 0); [|change (cnt n (parked 0 r c ev e S1)) with (cnt n S); lia]. apply Ht.
    destruct (tight_parked 0 r c ev e S1 Hp1 He n Tn) as [(q & x & Hx & Hk)|[T1|[T1 _]]]; [|discriminate|discriminate].
    unfold S1 in Hx, Hk. rewrite (atrig_spawned _ _ _ _ Q) in Hk. rewrite pat_spawned in Hx. destruct (Nat.eqb _ _); [injection Hx as <-; cbn [pcode] in Hk; destruct Hk as [Hk|(Hk & _)]; discriminate|].
    exists q, x. auto.
Qed.

(** ** It waits *)

(** The event of the buffer is in the queue. *)
Definition soon (S : sim) (n : string) : Prop := exists qa ev, dget (acts S) n = Some ev /\ In qa (heap S) /\ qev qa = ev /\ qtime qa = now S.
Lemma main_zero W k r S : Rest S -> Que (Some 0) S -> Sem W (Some 0) S -> (forall n, W n -> soon S n) -> proc_at 0 S = Some r -> nochief S -> (forall n, tight (Some 0) n S -> cnt n S = 0) ->
  early S = None -> Lands 0 (zero k S).
Proof.
  intros R Q H HW Hp Nc Ht Ee. unfold zero, bind. rewrite timeout_eq. change (Z.ltb 0 0) with false. cbv iota. cbn [ret Lands].
  set (S1 := timed 0 S). set (ev := List.length (evs S)). set (e := MkEvt (RTime (now S + 0)) (Some (Good XUnit)) false (Some [])). set (c := KProcZero k).
  assert (Q1 : Que (Some 0) S1) by (apply Que_timed; auto; lia). assert (H1 : Sem W (Some 0) S1) by (apply (Sem_timed W); auto).
  assert (He : event_at ev S1 = Some e) by (unfold S1; change (event_at ev (timed 0 S)) with (event_at ev (added e S)); rewrite at_added; unfold ev; rewrite Nat.eqb_refl; reflexivity).
  assert (Hp1 : proc_at 0 S1 = Some r) by exact Hp.
  apply (Ok_parked 0 r c ev e S1 Q1 Hp1 He); [exact R|reflexivity|discriminate|reflexivity|exists (now S + 0)%Z; reflexivity| |].
  - apply (Sem_parked W _ 0 r c ev e S1 Q1 H1 Hp1 He).
    + intros _. exact I.
    + intros n E. elim (main_ext _ _ _ n H E).
    + left. exact (hits_main _ _ _ H1).
    + exact I.
    + intros n [].
    + intros l El. change (early S1) with (early S) in El. congruence.
    + intros _ q x Hx Nq Hk. elim (Nc q x Hx Hk).
    + discriminate.
    + intros n Wn. destruct (HW n Wn) as (qa & eva & A & B & C & D). exists (MkPrc (pkind r) (pown r) ev c), k, qa, eva.
      rewrite (pat_parked 0 r c ev e S1 Hp1). split; [reflexivity|]. split; [reflexivity|]. split; [exact A|]. split; [apply in_or_app; left; exact B|]. split; [exact C|].
      intros qm Hm Em. cbn [ptarget] in Em. apply in_app_or in Hm. destruct Hm as [Hm|[<-|[]]].
      * exfalso. destruct (q_heap _ _ Q qm Hm) as (_ & _ & x & Hx & _). apply at_old in Hx. unfold ev in Em. lia.
      * cbn [qtime qprio qid now set_evs]. destruct (q_heap _ _ Q qa B) as (I1 & _ & x & Hx & _ & U). destruct (q_acts _ _ Q n eva A) as (y & Hy & Ry).
        rewrite C in Hx. assert (y = x) by congruence. subst y. rewrite Ry in U. cbn [urgent] in U. rewrite U. split; [cbn; lia|]. split; [lia|exact I1].
  - exists (MkPrc (pkind r) (pown r) ev c). rewrite (pat_parked 0 r c ev e S1 Hp1). split; [reflexivity|]. cbn [pcode c]. intros n Tn. change (cnt n _) with (cnt n S). apply Ht.
    destruct (tight_parked 0 r c ev e S1 Hp1 He n Tn) as [(q & x & Hx & Hk)|[T1|[T1 _]]]; [|discriminate|discriminate].
    unfold S1 in Hk. rewrite (atrig_timed _ _ _ _ Q) in Hk. exists q, x. auto.
Qed.

(** ** It calls and interrupts the processes of buffers *)

Record Launch (l : list proc) (r : prc) (S : sim) : Prop := MkLaunch {
  a_rest : Rest S;
  a_que : Que (Some 0) S;
  a_sem : Sem (soon S) (Some 0) S;
  a_main : proc_at 0 S = Some r;
  a_nochief : nochief S;
  a_early : early S = None;
  a_new : forall p x n, proc_at p S = Some x -> pcode x <> KExtra0 n;
  a_busy : forall p x n, proc_at p S = Some x -> busy n (pcode x) -> hits p S + count n l <= cnt n S;
  a_tight : forall n, tight (Some 0) n S -> count n l = cnt n S /\ cnt n S <= 1;
  a_idle : forall p x n, proc_at p S = Some x -> pcode x = KExtraAct n -> atrig n S = true -> dget (inter S) n = None \/ (soon S n /\ count n l = 0);
  a_live : forall n p, dget (extras S) n = Some p -> exists e, event_at (own_event p S) S = Some e /\ erole e = ROwn p /\ evalue e = None }.

Definition pname (pr : proc) : option (nat * string * bool) :=
  match pr with PProc => None | PReq id n m _ _ _ _ => Some (id, n, interruptible m) | PAuto id n _ _ _ _ => Some (id, n, false) end.
Definition inter_set (b : bool) (n : string) (id : nat) (S : sim) : sim := if b then set_inter (dset (inter S) n id) S else S.
Lemma launch_eq pr id n can S : pname pr = Some (id, n, can) -> launch 0 pr S =
  match dget (acts S) n with
  | None => (S, inr (TExn EKey))
  | Some ev =>
      if trig S ev then
        match dget (inter S) n with
        | Some id' => if Nat.eqb id id' then (S, inl tt) else interrupt_extra 0 n (inter_set true n id S)
        | None => (S, inl tt)
        end
      else succeed ev (inter_set can n id S)
  end.
Proof.
  intros E. destruct pr as [|id0 n0 m i c bs t|id0 n0 b i st t]; cbn [pname] in E; [discriminate| |]; injection E as <- <- <-; cbn [launch]; unfold act_of; unfold bind at 1 2, get at 1;
    (destruct (dget (acts S) n0) as [ev|]; [|reflexivity]); unfold bind at 1, get, ret at 1; (destruct (trig S ev); [destruct (dget (inter S) n0) as [id'|]; [destruct (Nat.eqb _ id')|]; reflexivity|]); [destruct (interruptible m); reflexivity|reflexivity].
Qed.
Lemma count_cons pr id n can l m : pname pr = Some (id, n, can) -> count m (pr :: l) = (if String.eqb m n then 1 else 0) + count m l.
Proof.
  intros E. unfold count, names_of. destruct pr as [|id0 n0 k i c bs t|id0 n0 b i st t]; cbn [pname] in E; [discriminate| |]; injection E as <- <- <-; cbn [flat_map app count_occ];
    (destruct (string_dec n0 m), (String.eqb_spec m n0); try congruence; lia).
Qed.
Lemma soon_grows S S' n : now S' = now S -> dget (acts S') n = dget (acts S) n -> (exists new, heap S' = heap S ++ new) -> soon S n -> soon S' n.
Proof. intros En Ea (new & Eh) (qa & ev & A & B & C & D). exists qa, ev. rewrite Ea, En, Eh. split; [exact A|]. split; [apply in_or_app; auto|auto]. Qed.
Lemma main_busy W a S p x n : Sem W a S -> proc_at p S = Some x -> busy n (pcode x) -> p <> 0.
Proof. intros H Hp Hb ->. destruct (s_main _ _ _ H) as (r & A & B). assert (x = r) by congruence. subst x. destruct (pcode r); contradiction. Qed.

Lemma launch_ok pr l r S : Launch (pr :: l) r S ->
  match launch 0 pr S with (S', inl _) => Launch l r S' | (_, inr t) => exists x, t = TExn x end.
Proof.
  intros [R Q H Hm Nc Ee Hn Hb Ht Hi Hl].
  destruct (pname pr) as [[[id n] can]|] eqn:En. 2:{ destruct pr; try discriminate. cbn. eauto. }
  rewrite (launch_eq pr id n can S En). assert (Ct : forall m, count m (pr :: l) = (if String.eqb m n then 1 else 0) + count m l) by (intros m; eapply count_cons; exact En).
  assert (Un : forall p x q y, proc_at p S = Some x -> xcode n (pcode x) -> proc_at q S = Some y -> xcode n (pcode y) -> p = q).
  { intros p x q y A B C D. pose proof (xcode_who _ _ _ _ _ Q A B). pose proof (xcode_who _ _ _ _ _ Q C D). congruence. }
  destruct (dget (acts S) n) as [ev|] eqn:Ea; [|eauto]. destruct (q_acts _ _ Q n ev Ea) as (e & He & Re).
  assert (An : atrig n S = trig S ev) by (unfold atrig; rewrite Ea; reflexivity).
  destruct (trig S ev) eqn:Tr.
  - assert (Nt : ~ tight (Some 0) n S).
    { intros (p & x & Hp & [Hc|(_ & _ & Hc)]); [elim (Hn p x n Hp Hc)|congruence]. }
    assert (Same : Launch l r S).
    { constructor; auto.
      - intros p x m Hp Hc. specialize (Hb p x m Hp Hc). rewrite Ct in Hb. lia.
      - intros m Tm. specialize (Ht m Tm). rewrite Ct in Ht. destruct (String.eqb_spec m n) as [->|N]; [contradiction|exact Ht].
      - intros p x m Hp Hc Am. destruct (Hi p x m Hp Hc Am) as [D|[D D']]; [auto|right]. split; [exact D|]. rewrite Ct in D'. lia. }
    destruct (dget (inter S) n) as [id'|] eqn:Ei; [|exact Same]. destruct (Nat.eqb id id'); [exact Same|]. clear Same.
    unfold inter_set. set (S1 := set_inter (dset (inter S) n id) S). unfold interrupt_extra, bind, get. change (extras S1) with (extras S). destruct (dget (extras S) n) as [p0|] eqn:Ex; [|unfold throw; eauto].
    destruct (s_ext _ _ _ H n p0 Ex) as (x0 & ev' & Hp0 & X0 & _). destruct (Hl n p0 Ex) as (eo & Ho & Ro & Vo).
    assert (B0 : busy n (pcode x0)).
    { destruct (pcode x0) as [| | | |m|m|m pro|m pro| | | | | | |] eqn:Hc; try contradiction; cbn in X0; subst m; [elim (Hn p0 x0 n Hp0 Hc)| |reflexivity|reflexivity].
      destruct (Hi p0 x0 n Hp0 Hc An) as [D|[_ D]]; [congruence|]. rewrite Ct, String.eqb_refl in D. lia. }
    assert (N0 : 0 <> p0) by (intros E; exact (main_busy _ _ _ _ _ _ H Hp0 B0 (eq_sym E))).
    assert (Ed : ended p0 S1 = false) by (unfold ended, trig; change (event_at (own_event p0 S1) S1) with (event_at (own_event p0 S) S); rewrite Ho; unfold triggered; rewrite Vo; reflexivity).
    rewrite (interrupt_eq 0 p0 S1 Ed N0). set (S2 := struck p0 S1).
    assert (Nk : forall p x, proc_at p S = Some x -> pcode x <> KExtraAct n).
    { intros p x Hp Hc. assert (p = p0) by (apply (Un p x p0 x0 Hp); auto; rewrite Hc; reflexivity). subst p. assert (x = x0) by congruence. subst x. rewrite Hc in B0. contradiction. }
    assert (Q1 : Que (Some 0) S1) by (apply (Que_same (Some 0) S); auto).
    assert (H1 : Sem (soon S) (Some 0) S1).
    { apply (Sem_rest (soon S) _ (Some 0) S Q H); auto; [exact (s_cnt _ _ _ H)|]. intros q x m A B C D. cbn [S1 inter set_inter]. destruct (String.eqb_spec m n) as [->|N]; [elim (Nk q x A B)|].
      rewrite dget_dset_neq by congruence. exact (s_idle _ _ _ H q x m A B C D). }
    assert (So : forall m, soon S m -> soon S2 m) by (intros m; apply soon_grows; try reflexivity; eexists; reflexivity).
    pose proof (Hb p0 x0 n Hp0 B0) as Hb0. rewrite Ct, String.eqb_refl in Hb0.
    assert (Hh : hits p0 S1 = hits p0 S) by reflexivity.
    assert (At : forall m, atrig m S2 = atrig m S) by (intros m; unfold S2; rewrite (atrig_struck _ _ _ _ Q1); reflexivity).
    constructor; auto.
    + apply Que_struck. exact Q1.
    + apply (Sem_weaken (soon S)); [|exact So]. apply (Sem_struck (soon S) (Some 0) p0 x0 S1 H1 Q1 Hp0); [left; destruct (pcode x0) as [| | | | | | | |[|] ? ?|[|] ? ? ?| | | | |]; try contradiction; exact I|].
      intros m Em. change (extras S1) with (extras S) in Em. assert (m = n) by (destruct (s_ext _ _ _ H m p0 Em) as (y & ? & Y1 & Y2 & _); assert (y = x0) by congruence; subst y; exact (xcode_inj _ _ _ Y2 X0)). subst m.
      rewrite Hh. change (cnt n S1) with (cnt n S). lia.
    + intros p x m Hp Hc. change (proc_at p S2) with (proc_at p S) in Hp. change (cnt m S2) with (cnt m S). specialize (Hb p x m Hp Hc). rewrite Ct in Hb. destruct (Nat.eq_dec p p0) as [->|N].
      * assert (x = x0) by congruence. subst x. assert (m = n) by (destruct (pcode x0); try contradiction; cbn in Hc, B0; congruence). subst m. rewrite String.eqb_refl in Hb.
        assert (E : hits p0 S2 = hits p0 S + 1); [|lia]. unfold S2. rewrite (hits_snoc p0 S1 (struck p0 S1) _ (keeps_struck p0 S1) (Que_backed _ _ Q1) eq_refl). unfold is_int. cbn [qev].
        change (event_at (List.length (evs S1)) (struck p0 S1)) with (event_at (List.length (evs S1)) (added (MkEvt (RInt p0) (Some (Bad TInterrupt)) true (Some [CInt p0])) S1)). rewrite at_added, Nat.eqb_refl. cbn [erole].
        rewrite Nat.eqb_refl. reflexivity.
      * unfold S2. rewrite (hits_struck p p0 S1 (Que_backed _ _ Q1) N). change (hits p S1) with (hits p S). lia.
    + intros m (p & x & Hp & Hc). rewrite At in Hc. assert (Tm : tight (Some 0) m S) by (exists p, x; auto). destruct (Ht m Tm) as [T1 T2]. change (cnt m S2) with (cnt m S). rewrite Ct in T1.
      destruct (String.eqb_spec m n) as [->|N]; [contradiction|auto].
    + intros p x m Hp Hc. rewrite At. intros Am. cbn [S2 S1 struck queued added inter set_inter set_queue set_evs]. destruct (String.eqb_spec m n) as [->|N]; [elim (Nk p x Hp Hc)|].
      rewrite dget_dset_neq by congruence. destruct (Hi p x m Hp Hc Am) as [D|[D D']]; [auto|right]. split; [auto|]. rewrite Ct in D'. lia.
    + intros m p Hp. destruct (Hl m p Hp) as (y & A & B). exists y. split; [|exact B]. exact (at_added_old _ _ _ _ A).
  - assert (V : evalue e = None) by (unfold trig, triggered in Tr; rewrite He in Tr; destruct (evalue e); [discriminate|reflexivity]).
    set (S1 := inter_set can n id S).
    assert (He1 : event_at ev S1 = Some e) by (unfold S1, inter_set; destruct can; exact He). rewrite (succeed_eq ev e S1 He1 V). set (S2 := fired ev e S1).
    assert (Q1 : Que (Some 0) S1) by (unfold S1, inter_set; destruct can; [apply (Que_same (Some 0) S); auto|exact Q]).
    assert (E1 : now S1 = now S /\ acts S1 = acts S /\ heap S1 = heap S /\ prs S1 = prs S /\ evs S1 = evs S /\ ss S1 = ss S /\ early S1 = early S /\ extras S1 = extras S /\ Rest S1) by (unfold S1, inter_set; destruct can; auto 10).
    destruct E1 as (E1 & E2 & E3 & E4 & E5 & E6 & E7 & E8 & R1).
    assert (I1 : forall m, m <> n -> dget (inter S1) m = dget (inter S) m) by (intros m N; unfold S1, inter_set; destruct can; [apply dget_dset_neq; congruence|reflexivity]).
    assert (At1 : forall m, atrig m S1 = atrig m S) by (intros m; unfold atrig, trig, event_at; rewrite E2, E5; reflexivity).
    assert (Pr1 : forall p, proc_at p S1 = proc_at p S) by (intros p; unfold proc_at; rewrite E4; reflexivity).
    assert (H1 : Sem (soon S) (Some 0) S1).
    { apply (Sem_rest (soon S) _ (Some 0) S Q H); auto; [intros m p Hp; unfold cnt; rewrite E6; exact (s_cnt _ _ _ H m p Hp)|]. intros q x m A B C D. destruct (String.eqb_spec m n) as [->|N]; [congruence|].
      rewrite I1 by exact N. exact (s_idle _ _ _ H q x m A B C D). }
    assert (So : forall m, soon S m -> soon S2 m) by (intros m; apply soon_grows; [exact E1|change (acts S2) with (acts S1); rewrite E2; reflexivity|exists [MkQ (now S1 + 0) NORMAL (eid S1) ev]; change (heap S2) with (heap S1 ++ [MkQ (now S1 + 0) NORMAL (eid S1) ev]); rewrite E3; reflexivity]).
    assert (Sn : soon S2 n).
    { exists (MkQ (now S1 + 0) NORMAL (eid S1) ev), ev. split; [change (acts S2) with (acts S1); rewrite E2; exact Ea|]. split; [apply in_or_app; right; left; reflexivity|]. split; [reflexivity|]. cbn. lia. }
    assert (Hh : forall p, hits p S2 = hits p S).
    { intros p. transitivity (hits p S1); [|unfold hits, is_int, event_at; rewrite E3, E5; reflexivity]. unfold S2. rewrite (hits_snoc p S1 (fired ev e S1) _ (keeps_fired ev e S1 He1) (Que_backed _ _ Q1) eq_refl).
      destruct (is_int p _ _) eqn:Is; [|lia]. apply is_int_iff in Is. cbn [qev] in Is. apply (keeps_back _ _ _ _ _ (keeps_fired ev e S1 He1) He1) in Is. destruct Is as (y & Y1 & Y2). congruence. }
    assert (Nb : forall p x, proc_at p S = Some x -> ~ busy n (pcode x)) by (intros p x Hp Hc; pose proof (s_busy _ _ _ H p x n Hp Hc); congruence).
    assert (At2 : forall m, m <> n -> atrig m S2 = atrig m S).
    { intros m N. rewrite <- At1. unfold S2. change (atrig m (fired ev e S1)) with (atrig m (changed ev (valued (Good XUnit) e) S1)). apply (atrig_changed m ev e); [exact He1|]. rewrite E2. intros E. apply N. exact (q_inj _ _ Q _ _ _ E Ea). }
    assert (Atn : atrig n S2 = true).
    { unfold atrig. change (acts S2) with (acts S1). rewrite E2, Ea. unfold trig. change (event_at ev S2) with (event_at ev (changed ev (valued (Good XUnit) e) S1)). rewrite (at_changed _ _ _ _ _ He1), Nat.eqb_refl. reflexivity. }
    assert (Pr2 : forall p, proc_at p S2 = proc_at p S) by (intros p; exact (Pr1 p)).
    assert (Cn : forall m, cnt m S2 = cnt m S) by (intros m; unfold cnt; change (ss S2) with (ss S1); rewrite E6; reflexivity).
    constructor.
    + exact R1.
    + apply Que_fired; auto. rewrite Re. reflexivity.
    + apply (Sem_fired (soon S) _ (Some 0) S1 Q1 H1 So ev e He1 Re); [left; rewrite E7; exact Ee|]. intros p x m _ _ _ Em. rewrite E2 in Em. assert (m = n) by exact (q_inj _ _ Q _ _ _ Em Ea). subst m. right. exact Sn.
    + rewrite Pr2. exact Hm.
    + intros p x Hp. rewrite Pr2 in Hp. exact (Nc p x Hp).
    + change (early S2) with (early S1). rewrite E7. exact Ee.
    + intros p x m Hp. rewrite Pr2 in Hp. exact (Hn p x m Hp).
    + intros p x m Hp Hc. rewrite Pr2 in Hp. specialize (Hb p x m Hp Hc). rewrite Ct in Hb. rewrite Cn, Hh. lia.
    + intros m (p & x & Hp & Hc). rewrite Pr2 in Hp. rewrite Cn. destruct (String.eqb_spec m n) as [->|N].
      * destruct Hc as [Hc|(_ & _ & Hc)]; [elim (Hn p x n Hp Hc)|congruence].
      * rewrite (At2 m N) in Hc. assert (Tm : tight (Some 0) m S) by (exists p, x; auto). destruct (Ht m Tm) as [T1 T2]. rewrite Ct in T1. destruct (String.eqb_spec m n); [contradiction|auto].
    + intros p x m Hp Hc Am. rewrite Pr2 in Hp. destruct (String.eqb_spec m n) as [->|N].
      * right. split; [exact Sn|]. assert (Tm : tight (Some 0) n S).
        { exists p, x. split; [exact Hp|]. right. split; [exact Hc|]. split; [|exact An]. intros [= <-]. assert (x = r) by congruence. subst x. destruct (s_main _ _ _ H) as (y & Y1 & Y2). assert (y = r) by congruence. subst y. rewrite Hc in Y2. contradiction. }
        destruct (Ht n Tm) as [T1 T2]. rewrite Ct, String.eqb_refl in T1. lia.
      * rewrite (At2 m N) in Am. destruct (Hi p x m Hp Hc Am) as [D|[D D']]; [left; change (inter S2) with (inter S1); rewrite (I1 m N); exact D|right]. split; [auto|]. rewrite Ct in D'. lia.
    + intros m p Hp. change (extras S2) with (extras S1) in Hp. rewrite E8 in Hp. destruct (Hl m p Hp) as (y & A & B & C). exists y. split; [|auto].
      assert (Eo : own_event p S2 = own_event p S) by (unfold own_event; change (prs S2) with (prs S1); rewrite E4; reflexivity). rewrite Eo.
      change (event_at (own_event p S) S2) with (event_at (own_event p S) (changed ev (valued (Good XUnit) e) S1)). rewrite (at_changed _ _ _ _ _ He1).
      destruct (Nat.eqb_spec (own_event p S) ev) as [E|N]; [congruence|]. unfold event_at in *. rewrite E5. exact A.
Qed.
Lemma launch_all_ok l : forall r S, Launch l r S -> match launch_all 0 l S with (S', inl _) => Launch [] r S' | (_, inr t) => exists x, t = TExn x end.
Proof.
  induction l as [|pr l IH]; intros r S L; [exact L|]. cbn [launch_all]. unfold bind. pose proof (launch_ok pr l r S L) as L1. destruct (launch 0 pr S) as [S1 [[]|t]]; [exact (IH r S1 L1)|exact L1].
Qed.

Definition live (S : sim) : Prop := forall n p, dget (extras S) n = Some p -> exists e, event_at (own_event p S) S = Some e /\ erole e = ROwn p /\ evalue e = None.
Lemma Inv_live W a S : Inv S -> Sem W a S -> live S.
Proof.
  intros HI H n p Hn. destruct (s_ext _ _ _ H n p Hn) as (r & ev & Hp & Hx & _). destruct (i_own _ HI p r Hp) as (e & He & Ro & V). exists e.
  unfold own_event. change (nth_error (prs S) p) with (proc_at p S). rewrite Hp. split; [exact He|]. split; [exact Ro|]. destruct (xcode_nochief _ _ Hx) as [_ Ne]. tauto.
Qed.
Lemma calm_hits a p S : Que a S -> calm S -> hits p S = 0.
Proof.
  intros Q C. apply hits_zero. intros q Hq R. apply (C q Hq). destruct (q_heap _ _ Q q Hq) as (_ & _ & e & He & _ & U). destruct R as (x & Hx & R). assert (x = e) by congruence. subst x. rewrite R in U. exact (proj1 U).
Qed.
Lemma main_loop W r S : Rest S -> Que (Some 0) S -> Sem W (Some 0) S -> (forall n, ~ W n) -> proc_at 0 S = Some r -> nochief S -> calm S -> over (Some 0) S -> early S = None -> live S ->
  Lands 0 (proc_loop 0 S).
Proof.
  intros R Q H NW Hp Nc Ca Ov Ee Li. unfold proc_loop, bind at 1, get at 1. unfold get_started. rewrite Ee. destruct (remove_procedural (sprocs (ss S))) as [l|] eqn:Er.
  - unfold bind at 1, upd_ at 1, put_started. rewrite Ee. set (S1 := set_ss _ S).
    assert (Cn : forall n, count n l = cnt n S) by (intros n; unfold count, cnt; rewrite (remove_names _ _ Er); reflexivity).
    assert (L : Launch l r S1).
    { constructor; auto.
      - apply (Que_same (Some 0) S); auto.
      - apply (Sem_rest W _ (Some 0) S Q H); auto; [intros n p Hn; change (cnt n S1) with (count n l); rewrite Cn; exact (s_cnt _ _ _ H n p Hn)|].
        intros p x n A B C D. destruct (s_idle _ _ _ H p x n A B C D) as [X|X]; [auto|elim (NW n X)].
      - intros p x n Hx Hk. assert (N0 : p <> 0).
        { intros ->. destruct (s_main _ _ _ H) as (y & A & B). assert (y = x) by (change (proc_at 0 S = Some x) in Hx; congruence). subst y. rewrite Hk in B. contradiction. }
        destruct (q_wait _ _ Q p x Hx) as (e & He & _ & A); [congruence|rewrite Hk; discriminate|]. rewrite Hk in A. destruct A as (A & q & Hq & Eq). apply (Ca q Hq).
        destruct (q_heap _ _ Q q Hq) as (_ & _ & y & Hy & _ & U). assert (y = e) by congruence. subst y. rewrite A in U. exact (proj1 U).
      - intros p x n _ _. change (hits p S1) with (hits p S). change (cnt n S1) with (count n l). rewrite (calm_hits _ _ _ Q Ca). lia.
      - intros n Tn. change (cnt n S1) with (count n l). split; [reflexivity|]. rewrite Cn. destruct Ov as [[_ Ov]|Ov]; specialize (Ov n Tn); lia.
      - intros p x n A B D. left. assert (a : Some 0 <> Some p).
        { intros [= <-]. destruct (s_main _ _ _ H) as (y & C & E). assert (y = x) by (change (proc_at 0 S = Some x) in A; congruence). subst y. rewrite B in E. contradiction. }
        destruct (s_idle _ _ _ H p x n A B a D) as [X|X]; [exact X|elim (NW n X)]. }
    unfold bind. pose proof (launch_all_ok l r S1 L) as L2. destruct (launch_all 0 l S1) as [S2 [[]|t]]; [|exact L2]. destruct L2.
    apply (main_zero (soon S2) 4 r S2); auto. intros n Tn. destruct (a_tight0 n Tn) as [X _]. symmetry. exact X.
  - assert (Z : forall n, tight (Some 0) n S -> cnt n S = 0) by (destruct Ov as [[X _]|X]; [elim (remove_none _ Er X)|exact X]).
    cbn [Lands ret]. destruct (q_pact _ _ Q) as (e & He & Re). set (c := KProcAct).
    destruct (q_cbs _ _ Q _ _ He) as [[Cb V]|[Cb|[(p & x & Cb & Np & Hx & Hk & Ht)|(p & Cb & Rp)]]]; [| | |congruence].
    + destruct (evalue e) as [o|] eqn:Ev; [|contradiction].
      assert (Pm := pat_moved 0 r c (pact S) e o S Hp).
      assert (Tm : forall n, tight (Some 0) n (defused (pact S) e o (moved 0 r c S)) -> tight (Some 0) n S).
      { intros n (p & x & Hx & Hk). rewrite Pm in Hx. rewrite (atrig_moved 0 r c (pact S) e o S He) in Hk. destruct (Nat.eqb_spec p 0) as [E|N]; [injection Hx as <-; cbn [pcode c] in Hk; destruct Hk as [Hk|[Hk _]]; discriminate|].
        exists p, x. auto. }
      apply (Ok_moved 0 r c (pact S) e o S Q Hp He R Cb Ev); [reflexivity|discriminate| | |].
      * apply (Sem_moved W _ 0 r c (pact S) e o S Q H Hp He).
        -- intros _. exact I.
        -- intros n E. elim (main_ext _ _ _ n H E).
        -- left. exact (hits_main _ _ _ H).
        -- exact I.
        -- intros n [].
        -- intros l El. congruence.
        -- intros n Wn. elim (NW n Wn).
      * left. left. reflexivity.
      * cbn [Act c]. pose proof (s_vals _ _ _ H _ _ He) as So. unfold sound in So. rewrite Ev in So. destruct o as [v|t].
        -- split; [|intros n Tn; exact (Z n (Tm n Tn))]. intros p x Hx. rewrite Pm in Hx. destruct (Nat.eqb_spec p 0) as [E|N]; [injection Hx as <-; exact (fun x => x)|exact (Nc p x Hx)].
        -- destruct So as [[x ->]|(_ & p & Rp)]; [exact I|congruence].
    + apply (Ok_parked 0 r c (pact S) e S Q Hp He R Cb); [discriminate|reflexivity|reflexivity| |].
      * apply (Sem_parked W _ 0 r c (pact S) e S Q H Hp He).
        -- intros _. exact I.
        -- intros n E. elim (main_ext _ _ _ n H E).
        -- left. exact (hits_main _ _ _ H).
        -- exact I.
        -- intros n [].
        -- intros l El. congruence.
        -- intros _ q x Hx Nq Hk. elim (Nc q x Hx Hk).
        -- discriminate.
        -- intros n Wn. elim (NW n Wn).
      * exists (MkPrc (pkind r) (pown r) (pact S) c). rewrite (pat_parked 0 r c (pact S) e S Hp). split; [reflexivity|]. cbn [pcode c]. intros n Tn. change (cnt n _) with (cnt n S). apply Z.
        destruct (tight_parked 0 r c (pact S) e S Hp He n Tn) as [X|[X|[X _]]]; [exact X|discriminate|discriminate].
    + exfalso. destruct (q_wait _ _ Q p x Hx Np Hk) as (y & Hy & _ & A). rewrite Ht in Hy, A. assert (y = e) by congruence. subst y.
      pose proof (q_who _ _ Q p x Hx) as Wh. destruct (pcode x); cbn [aims who] in A, Wh; try contradiction;
        first [congruence|elim (q_apart _ _ Q _ A)|destruct A as [A _]; congruence|destruct A as (? & A); congruence].
Qed.

Lemma main_ok O r o S : Inv S -> Rest S -> Que (Some 0) S -> Sem (fun _ => False) (Some 0) S -> proc_at 0 S = Some r -> mcode (pcode r) -> Act 0 (pcode r) o S -> Lands 0 (go_on O 0 (pcode r) o S).
Proof.
  intros HI R Q H Hp Hm Ha.
  assert (Ea : forall l, early S = Some l -> pcode r = KProc0 \/ pcode r = KProcPro true).
  { intros l El. destruct (s_early _ _ _ H l El) as (_ & (y & A & B) & _). assert (y = r) by congruence. subst y. exact B. }
  destruct o as [v|t].
  2:{ cbn [Act] in Ha. destruct t as [x| |]; [|contradiction|destruct (pcode r); contradiction]. destruct (pcode r) as [|f| |[|k]| | | | | | | | | | |]; try contradiction; cbn; eauto. }
  destruct (pcode r) as [|f| |k| | | | | | | | | | |] eqn:Hc; try contradiction; cbn [Act] in Ha.
  - rewrite (go_rules O KProc0 true S eq_refl). destruct Ha as [Nc Ht]. apply (main_rules (fun _ => False) true r); auto.
  - destruct Ha as (Nc & Ca & Ov). cbn [go_on]. unfold bind at 1, upd_ at 1. set (S1 := set_early None S).
    assert (Q1 : Que (Some 0) S1) by (apply (Que_same (Some 0) S); auto).
    assert (H1 : Sem (fun _ => False) (Some 0) S1) by (apply (Sem_rest (fun _ => False) _ (Some 0) S Q H); auto; [exact (s_cnt _ _ _ H)|exact (s_idle _ _ _ H)]).
    pose proof (Inv_live _ _ _ HI H) as Li. destruct f.
    + unfold bind, ret. apply (main_loop (fun _ => False) r); auto.
    + unfold bind, new_event, mk_event, upd_. fold act0. fold (added act0 S1). set (ev := List.length (evs S1)). set (S2 := set_pact ev (added act0 S1)).
      assert (Qa : Que (Some 0) (added act0 S1)) by (apply Que_added; auto).
      assert (Ha1 : Sem (fun _ => False) (Some 0) (added act0 S1)) by (apply (Sem_added (fun _ => False)); auto; exact I).
      assert (Tg : forall n, tight (Some 0) n S2 -> tight (Some 0) n S).
      { intros n (p & x & Hx & Hk). exists p, x. split; [exact Hx|]. change (atrig n S2) with (atrig n (added act0 S1)) in Hk. rewrite (atrig_added _ _ _ _ Q1) in Hk. exact Hk. }
      apply (main_loop (fun _ => False) r); auto.
      * apply Que_pact; [exact Qa| | |].
        -- intros p x Hx Np Hk. pose proof (q_who _ _ Q p x Hx) as Wh. rewrite Hk in Wh. cbn in Wh. congruence.
        -- exists act0. split; [|reflexivity]. rewrite at_added. unfold ev. rewrite Nat.eqb_refl. reflexivity.
        -- intros n E. destruct (q_acts _ _ Q1 n ev E) as (x & Hx & _). apply at_old in Hx. unfold ev in Hx. lia.
      * apply (Sem_rest (fun _ => False) _ (Some 0) (added act0 S1) Qa Ha1); auto; [exact (s_cnt _ _ _ Ha1)|exact (s_idle _ _ _ Ha1)].
      * destruct Ov as [[O1 O2]|O1]; [left; split; [exact O1|]; intros n Tn; exact (O2 n (Tg n Tn))|right; intros n Tn; exact (O1 n (Tg n Tn))].
      * intros n p Hn. destruct (Li n p Hn) as (e & A & B). exists e. split; [|exact B]. exact (at_added_old _ _ _ _ A).
  - destruct Ha as [Nc Ht]. apply (main_zero (fun _ => False) 4 r); auto; [intros n []|]. destruct (early S) as [l|] eqn:El; [destruct (Ea l eq_refl); discriminate|reflexivity].
  - destruct Ha as [Nc Ht]. destruct k as [|k].
    + rewrite (go_rules O (KProcZero 0) false S eq_refl). apply (main_rules (fun _ => False) false r); auto. intros l El. destruct (Ea l El); discriminate.
    + apply (main_zero (fun _ => False) k r); auto; [intros n []|]. destruct (early S) as [l|] eqn:El; [destruct (Ea l eq_refl); discriminate|reflexivity].
Qed.
