(** The invariant of FreeSteps is kept by the steps in which no process runs. *)
From Coq Require Import Lia.
From Verif Require Import Base BaseFacts Chunks DecMem Buffers BufferFacts Productions ProdSpec LearnFacts Sim SimFacts RunFacts QueueFacts FailFacts SafeFacts SafeRuns FreeSpec FreeGens FreeQueue FreeSteps.
Local Open Scope string_scope.
Local Open Scope list_scope.
Local Open Scope nat_scope.

Lemma LU_popped q h e S l1 l2 : LU S -> event_at (qev q) S = Some e -> heap S = l1 ++ q :: l2 -> h = l1 ++ l2 -> LU (popped q h e S).
Proof.
  intros H He El Eh. set (e' := MkEvt (erole e) (evalue e) (edefused e) None).
  assert (At : forall j, event_at j (popped q h e S) = if Nat.eqb j (qev q) then Some e' else event_at j S) by (intros j; exact (at_changed j (qev q) e' e S He)).
  pose proof (lu_dup _ H) as Nd. rewrite El, map_app in Nd. cbn [map] in Nd. destruct (NoDup_remove _ _ _ Nd) as [Nd1 Nd2]. rewrite <- map_app in Nd1, Nd2.
  assert (Hv : evalue e <> None). { destruct (lu_live _ H q) as (x & X & _ & Y); [rewrite El; apply in_or_app; cbn; auto|]. congruence. }
  constructor.
  - change (heap (popped q h e S)) with h. rewrite Eh. exact Nd1.
  - intros q1 Hq1. change (heap (popped q h e S)) with h in Hq1. rewrite Eh in Hq1. rewrite At. destruct (Nat.eqb_spec (qev q1) (qev q)) as [E|_].
    + elim Nd2. rewrite <- E. apply in_map. exact Hq1.
    + apply (lu_live _ H). rewrite El. apply in_app_or in Hq1. apply in_or_app. cbn. tauto.
  - intros j x Hx. rewrite At in Hx. destruct (Nat.eqb j (qev q)); [injection Hx as <-; intros _; exact Hv|exact (lu_val _ H j x Hx)].
  - intros j x B Hx. rewrite At in Hx. destruct (Nat.eqb j (qev q)); [injection Hx as <-; intros _; exact Hv|exact (lu_int _ H j x B Hx)].
Qed.

Section Module.
Variables (i : nat) (nm : dict nat).
Notation Bz := (Bz i nm).

Lemma Bz_pop q h e S : Inv S -> Ok S -> Neat S -> Bz S -> todo S = [] -> pop_min (heap S) = Some (q, h) -> event_at (qev q) S = Some e ->
  Bz (set_todo (map (WCb (qev q)) (match ecbs e with Some l => l | None => [] end) ++ [WEnd (qev q)]) (popped q h e S)).
Proof.
  intros HI K N HB Et Ep He. destruct (o_all _ K) as (a & Q & _ & _ & Td). unfold Todo in Td. rewrite Et in Td. subst a.
  destruct (pop_min_split _ _ _ Ep) as (l1 & l2 & El & Eh & Min). set (e' := MkEvt (erole e) (evalue e) (edefused e) None). set (S' := set_todo _ _).
  assert (At : forall j, event_at j S' = if Nat.eqb j (qev q) then Some e' else event_at j S) by (intros j; exact (at_changed j (qev q) e' e S He)).
  assert (Hq : In q (heap S)) by (rewrite El; apply in_or_app; cbn; auto).
  assert (Sub : forall x, In x h -> In x (heap S)) by (intros x Hx; rewrite El; rewrite Eh in Hx; apply in_app_or in Hx; apply in_or_app; cbn; tauto).
  assert (Back : forall x, In x (heap S) -> x = q \/ In x h) by (intros x Hx; rewrite El in Hx; rewrite Eh; apply in_app_or in Hx; destruct Hx as [Hx|[Hx|Hx]]; [right; apply in_or_app|left|right; apply in_or_app]; auto).
  destruct (lu_live _ (b_lu _ _ _ HB) q Hq) as (x & X & Cn & _). assert (x = e) by congruence. subst x.
  assert (Nd2 : forall x, In x h -> qev x <> qev q).
  { pose proof (lu_dup _ (b_lu _ _ _ HB)) as Nd. rewrite El, map_app in Nd. cbn [map] in Nd. destruct (NoDup_remove _ _ _ Nd) as [_ Nd2]. rewrite <- map_app, <- Eh in Nd2. intros y Hy Ey. apply Nd2. rewrite <- Ey. apply in_map. exact Hy. }
  assert (Fq : forall q1 q', In q1 (heap S) -> first q1 q' -> q' <> q).
  { intros q1 q' H1 (F1 & F2 & F3) ->. specialize (Min _ H1). unfold before in Min. lia. }
  assert (Et' : todo S' = map (WCb (qev q)) (match ecbs e with Some l => l | None => [] end) ++ [WEnd (qev q)]) by reflexivity.
  assert (Ai : forall B, erole e = RInt B -> aimed B (todo S')).
  { intros B R. destruct (i_role _ HI _ _ _ He R) as [[C|C] _]; [contradiction|]. left. rewrite Et', C. cbn [map app]. eauto. }
  assert (Cs : todo S' = [WEnd (qev q)] \/ (exists p r, todo S' = [WCb (qev q) (CResume p); WEnd (qev q)] /\ proc_at p S = Some r /\ ptarget r = qev q) \/ (exists B, todo S' = [WCb (qev q) (CInt B); WEnd (qev q)] /\ erole e = RInt B)).
  { rewrite Et'. destruct (q_cbs _ _ Q _ _ He) as [[C _]|[C|[(p & r & C & _ & C1 & _ & C2)|(p & C & C1)]]]; [contradiction|left|right; left; exists p, r|right; right; exists p]; rewrite C; auto. }
  apply (view_Bz i nm S); auto.
  - intros ev x Hx. rewrite At. destruct (Nat.eqb_spec ev (qev q)) as [->|_]; [|eauto]. exists e'. assert (x = e) by congruence. subst x. auto.
  - intros ev x Hx. rewrite At in Hx. destruct (Nat.eqb_spec ev (qev q)) as [->|_]; [|eauto]. injection Hx as <-. exists e. auto.
  - intros p x Hx Kx [(q1 & H1 & R1)|A]; [|rewrite Et in A; destruct A as [(? & ? & D)|(? & D)]; discriminate].
    destruct (Back _ H1) as [->|H1']; [right; destruct R1 as (y & Hy & Ry); assert (y = e) by congruence; subst y; auto|]. left. exists q1. split; [exact H1'|].
    destruct R1 as (y & Hy & Ry). unfold role_at. rewrite At. destruct (Nat.eqb_spec (qev q1) (qev q)) as [E|_]; [elim (Nd2 _ H1' E)|eauto].
  - apply (LU_same (popped q h e S)); try reflexivity. apply (LU_popped q h e S l1 l2); auto. exact (b_lu _ _ _ HB).
  - intros q1 q' H1 H' F. destruct (Back _ H') as [->|Z]; [|exact Z]. elim (Fq q1 q (Sub _ H1) F eq_refl).
  - intros q' p' n g H' R' (x & Hx & Cx) _ Rs. destruct Cs as [C|[(p & r & C & Hr & Ht)|(B & C & _)]]; rewrite C in Rs; destruct Rs as [(? & ? & D)|(? & ? & D)]; try discriminate.
    injection D as _ <- _. assert (x = r) by congruence. subst x. destruct (q_wait _ _ Q p r Hr) as (y & Hy & _ & Ay); [discriminate|congruence|]. rewrite Cx in Ay. cbn [aims] in Ay. destruct Ay as [Ry _]. rewrite Ht in Hy.
    destruct (n_init _ N _ _ _ Hy Ry) as (r1 & Hr1 & E1). destruct R' as (z & Hz & Rz). destruct (n_init _ N _ _ _ Hz Rz) as (r2 & Hr2 & E2). apply (Nd2 q' H'). congruence.
  - intros B x n A Hx L Hm. destruct Cs as [C|[(p & r & C & Hr & Ht)|(B0 & C & Rb)]]; rewrite C in *; destruct A as [(? & ? & D)|(? & D)]; try discriminate. injection D as _ <- _.
    destruct (b_hid _ _ _ HB q B0 x n Hq) as (q' & p' & H' & _ & F & Hh); auto; [exists e; auto|]. exists p'. split; [exact Hh|]. intros [(? & ? & D)|(? & ? & D)]; discriminate.
  - intros E v l x n pro y z D. destruct Cs as [C|[(p & r & C & Hr & Ht)|(B0 & C & Rb)]]; rewrite C in D; discriminate.
Qed.

(** The events are the same up to their callbacks and whether they are defused. *)
Lemma Bz_view S S' : Bz S -> prs S' = prs S -> ss S' = ss S -> heap S' = heap S -> LU S' ->
  (forall ev e, event_at ev S = Some e -> exists e', event_at ev S' = Some e' /\ erole e' = erole e /\ evalue e' = evalue e) ->
  (forall ev e, event_at ev S' = Some e -> exists e', event_at ev S = Some e' /\ erole e = erole e' /\ evalue e = evalue e') ->
  (forall p x, proc_at p S = Some x -> pcode x <> KEnd -> aimed p (todo S) -> aimed p (todo S')) ->
  (forall p' n g, at_ p' (KLocal0 false n g) S -> resumed p' (todo S') -> resumed p' (todo S)) ->
  (forall B x n, aimed B (todo S') -> proc_at B S = Some x -> locl n (pcode x) -> mine i nm n -> aimed B (todo S)) ->
  (forall E v l x n pro y e, todo S' = WRun E (Good v) :: l -> proc_at E S = Some x -> pcode x = KExtraPro n pro -> proc_at pro S = Some y -> event_at (pown y) S = Some e -> evalue e = Some (Good v)) -> Bz S'.
Proof.
  intros HB Ep Es Eh L Evs Evs' Ai Rs Hh Ti. apply (view_Bz i nm S); auto.
  - intros p x Hx Kx [(q & Hq & (e & He & R))|A]; [left; exists q; rewrite Eh; split; [exact Hq|]; destruct (Evs _ _ He) as (e' & He' & R' & _); exists e'; split; [exact He'|congruence]|right; eauto].
  - rewrite Eh. auto.
  - rewrite Eh. auto.
  - intros q' p' n g _ _ A N R. exact (N (Rs _ _ _ A R)).
  - intros B x n A Hx Lc Hm. destruct (b_hit _ _ _ HB B x n (Hh B x n A Hx Lc Hm) Hx Lc Hm) as (p' & D). exists p'. split; [exact D|]. destruct D as (Nr & m & g & A' & _). intros R. exact (Nr (Rs _ _ _ A' R)).
Qed.

Lemma Bz_resume w ev p e o S : Inv S -> Ok S -> Bz S -> todo S = [WCb ev (CResume p); w] -> event_at ev S = Some e -> evalue e = Some o ->
  Bz (set_todo [WRun p o; w] (exec_ (match o with Bad _ => defuse ev | _ => ret tt end) (set_todo [w] S))).
Proof.
  intros HI K HB Et He Ev. destruct (o_all _ K) as (a & Q & Se & _ & Td). unfold Todo in Td. rewrite Et in Td. destruct w as [| |w]; try contradiction. destruct Td as (_ & r & e0 & o0 & Hr & He0 & Ev0 & Kr & Ac).
  assert (e0 = e) by congruence. subst e0. assert (o0 = o) by congruence. subst o0.
  assert (He1 : event_at ev (set_todo [WEnd w] S) = Some e) by exact He. rewrite (defuse_eq ev e o _ He1). set (S' := set_todo _ _).
  assert (At : exists d, evs S' = evs S \/ forall j, event_at j S' = if Nat.eqb j ev then Some (MkEvt (erole e) (evalue e) d (ecbs e)) else event_at j S).
  { exists true. destruct o as [v|t]; [left; reflexivity|right]. intros j. exact (at_changed j ev (MkEvt (erole e) (evalue e) true (ecbs e)) e S He). }
  assert (Tg : ptarget r = ev). { destruct (i_resw _ HI ev p) as (r1 & X & Y); [rewrite Et; left; reflexivity|]. congruence. }
  assert (Et' : todo S' = [WRun p o; WEnd w]) by (destruct o; reflexivity).
  apply (Bz_view S); auto; try (destruct o; reflexivity).
  - destruct o as [v|t]; [apply (LU_same S); [reflexivity|reflexivity|exact (b_lu _ _ _ HB)]|]. apply (LU_same (changed ev (MkEvt (erole e) (evalue e) true (ecbs e)) S)); try reflexivity. apply (LU_changed ev e); auto. exact (b_lu _ _ _ HB).
  - intros j x Hx. destruct At as (d & [E|At]); [exists x; unfold event_at; rewrite E; auto|]. rewrite At. destruct (Nat.eqb_spec j ev) as [->|_]; [|eauto]. assert (x = e) by congruence. subst x. eexists. split; [reflexivity|]. auto.
  - intros j x Hx. destruct At as (d & [E|At]); [exists x; unfold event_at in Hx; rewrite E in Hx; auto|]. rewrite At in Hx. destruct (Nat.eqb_spec j ev) as [->|_]; [|eauto]. injection Hx as <-. exists e. auto.
  - intros p' x _ _ A. rewrite Et in A. destruct A as [(? & ? & D)|(? & D)]; discriminate.
  - intros p' n g _ R. rewrite Et' in R. destruct R as [(? & ? & D)|(? & ? & D)]; [discriminate|]. injection D as <- _. left. rewrite Et. eauto.
  - intros B x n A Hx Lc _. exfalso. rewrite Et' in A. destruct A as [(? & ? & D)|(? & D)]; [discriminate|]. injection D as <- -> _. assert (x = r) by congruence. subst x.
    cbn [Act] in Ac. pose proof (i_fits _ HI p r Hr) as Hf. pose proof (s_vals _ _ _ Se _ _ He) as Sd. unfold sound in Sd. rewrite Ev in Sd. destruct Sd as [(y & D)|(_ & B & R)]; [discriminate|].
    destruct (pcode r) as [| | | | | | | |[|]|[|]| | | | |]; cbn [locl] in Lc; try contradiction. cbn [fits] in Hf. rewrite Tg in Hf. destruct Hf as (z & Hz & Rz). congruence.
  - intros E v l x n pro y z D Hx Hc Hy Hz. rewrite Et' in D. injection D as <- -> _. assert (x = r) by congruence. subst x. pose proof (i_fits _ HI p r Hr) as Hf. rewrite Hc in Hf. destruct Hf as (y1 & Hy1 & _ & Oy). congruence.
Qed.

Lemma Bz_end w S : Bz S -> todo S = [WEnd w] -> Bz (set_todo [] S).
Proof.
  intros HB Et. apply (Bz_view S); auto; try (intros ev e H; exists e; auto); [apply (LU_same S); [reflexivity|reflexivity|exact (b_lu _ _ _ HB)]| | | |].
  - intros p x _ _ A. rewrite Et in A. destruct A as [(? & ? & D)|(? & D)]; discriminate.
  - intros p' n g _ [(? & ? & D)|(? & ? & D)]; discriminate.
  - intros B x n [(? & ? & D)|(? & D)]; discriminate.
  - discriminate.
Qed.

Lemma Bz_int O w ev p S : Inv S -> Ok S -> Bz S -> todo S = [WCb ev (CInt p); w] -> Bz (work_off O (WCb ev (CInt p)) (set_todo [w] S)).
Proof.
  intros HI K HB Et. destruct (o_all _ K) as (a & Q & Se & _ & Td). unfold Todo in Td. rewrite Et in Td. destruct w as [| |w]; try contradiction. destruct Td as (_ & r & Hr & Cs).
  cbn [work_off]. change (nth_error (prs (set_todo [WEnd w] S)) p) with (proc_at p S). rewrite Hr. destruct (i_own _ HI p r Hr) as (eo & Heo & _ & Vo).
  assert (Ee : ended p (set_todo [WEnd w] S) = match evalue eo with Some _ => true | None => false end).
  { unfold ended, own_event, trig, triggered. change (nth_error (prs (set_todo [WEnd w] S)) p) with (proc_at p S). rewrite Hr. change (event_at (pown r) (set_todo [WEnd w] S)) with (event_at (pown r) S). rewrite Heo. reflexivity. }
  rewrite Ee. destruct (evalue eo) as [vo|] eqn:Ev.
  - assert (Kr : pcode r = KEnd). { destruct (pcode r); try reflexivity; exfalso; assert (X : Some vo = None) by (apply Vo; discriminate); discriminate. }
    apply (Bz_view S); auto; try (intros j e H; exists e; auto); [apply (LU_same S); [reflexivity|reflexivity|exact (b_lu _ _ _ HB)]| | | |].
    + intros p' x Hx Kx A. rewrite Et in A. destruct A as [(? & ? & D)|(? & D)]; [|discriminate]. injection D as _ <- _. congruence.
    + intros p' n g _ [(? & ? & D)|(? & ? & D)]; discriminate.
    + intros B x n [(? & ? & D)|(? & D)]; discriminate.
    + discriminate.
  - assert (Kr : pcode r <> KEnd) by (apply Vo; reflexivity). destruct Cs as [Cs|Cs]; [contradiction|].
    assert (N0 : forall n g, pcode r <> KLocal0 false n g). { intros n g E. rewrite E in Cs. destruct Cs as [(m & B & _)|(m & e & k & D)]; [exact B|discriminate]. }
    cbv zeta. set (S1 := exec_ _ _). assert (Et1 : todo S1 = [WEnd w]). { subst S1. unfold exec_, set_event, upd_. cbn [fst]. destruct (nth_error _ _); reflexivity. } rewrite Et1.
    assert (At : evs S1 = evs S \/ exists e c, event_at (ptarget r) S = Some e /\ (c = None -> ecbs e = None) /\ S1 = changed (ptarget r) (MkEvt (erole e) (evalue e) (edefused e) c) (set_todo [WEnd w] S)).
    { subst S1. unfold exec_, set_event, upd_. cbn [fst]. change (nth_error (evs (set_todo [WEnd w] S)) (ptarget r)) with (event_at (ptarget r) S). destruct (event_at (ptarget r) S) as [e|]; [right; exists e; eexists; split; [reflexivity|split; [|reflexivity]]; destruct (ecbs e); [discriminate|reflexivity]|left; reflexivity]. }
    assert (Ps : prs S1 = prs S /\ ss S1 = ss S /\ heap S1 = heap S). { subst S1. unfold exec_, set_event, upd_. cbn [fst]. destruct (nth_error _ _); auto. } destruct Ps as (P1 & P2 & P3).
    apply (Bz_view S); auto.
    + destruct At as [E|(e & c & He & Hc & E)]; [apply (LU_same S); [exact P3|exact E|exact (b_lu _ _ _ HB)]|]. apply (LU_same S1); try reflexivity. rewrite E. apply (LU_changed (ptarget r) e); auto. apply (LU_same S); [reflexivity|reflexivity|exact (b_lu _ _ _ HB)].
    + intros j x Hx. destruct At as [E|(e & c & He & Hc & E)]; [exists x; unfold event_at; cbn [evs set_todo]; rewrite E; auto|]. change (exists e' : evt, event_at j S1 = Some e' /\ erole e' = erole x /\ evalue e' = evalue x). rewrite E. rewrite (at_changed j (ptarget r) _ e); [|exact He]. destruct (Nat.eqb_spec j (ptarget r)) as [->|_]; [|eauto]. assert (x = e) by congruence. subst x. eexists. split; [reflexivity|]. auto.
    + intros j x Hx. destruct At as [E|(e & c & He & Hc & E)]; [exists x; unfold event_at in Hx; cbn [evs set_todo] in Hx; rewrite E in Hx; auto|]. change (event_at j S1 = Some x) in Hx. rewrite E in Hx. rewrite (at_changed j (ptarget r) _ e) in Hx; [|exact He]. destruct (Nat.eqb_spec j (ptarget r)) as [->|_]; [|eauto]. injection Hx as <-. exists e. auto.
    + intros p' x _ _ A. rewrite Et in A. destruct A as [(? & ? & D)|(? & D)]; [|discriminate]. injection D as _ <- _. right. cbn [todo set_todo]. eauto.
    + intros p' n g (x & Hx & Cx) R. cbn [todo set_todo] in R. destruct R as [(? & ? & D)|(? & ? & D)]; [discriminate|]. injection D as <- _. elim (N0 n g). congruence.
    + intros B x n A _ _ _. cbn [todo set_todo] in A. destruct A as [(? & ? & D)|(? & D)]; [discriminate|]. injection D as <- _. left. rewrite Et. eauto.
    + intros E v l x n pro y z D. discriminate.
Qed.

(** ** Steps without a running process *)
Lemma Bz_calm O S S' : Inv S -> Ok S -> Neat S -> Bz S -> (forall p o l, todo S <> WRun p o :: l) -> sim_step O S = Some S' -> dead S' = None -> Bz S'.
Proof.
  intros HI K N HB Nr. unfold sim_step. rewrite (o_dead _ K). destruct (o_all _ K) as (a & Q & Se & _ & Td). destruct (todo S) as [|w l] eqn:Et.
  - destruct (pop_min (heap S)) as [[q h]|] eqn:Ep; [|discriminate]. cbv zeta. change (event_at (qev q) (set_now (qtime q) (set_queue (eid S) h S))) with (event_at (qev q) S).
    destruct (pop_min_ok _ _ _ Ep) as [Hq _]. destruct (q_heap _ _ Q q Hq) as (_ & _ & e & He & Ve & _). rewrite He. unfold exec_, set_event, upd_. cbn [fst evs set_now set_queue]. change (nth_error (evs S) (qev q)) with (event_at (qev q) S). rewrite He. intros [= <-] _.
    exact (Bz_pop q h e S HI K N HB Et Ep He).
  - intros [= <-] Hd. unfold Todo in Td. rewrite Et in Td. destruct w as [ev [p|p|c]|p o|ev].
    + destruct l as [|[| |w] [|]]; try contradiction. destruct Td as (_ & r & e & o & Hr & He & Ev & _). cbn [work_off] in *. change (event_at ev (set_todo [WEnd w] S)) with (event_at ev S) in *. rewrite He, Ev. change (todo (set_todo [WEnd w] S)) with [WEnd w]. exact (Bz_resume (WEnd w) ev p e o S HI K HB Et He Ev).
    + destruct l as [|[| |w] [|]]; try contradiction. exact (Bz_int O (WEnd w) ev p S HI K HB Et).
    + contradiction.
    + elim (Nr p o l eq_refl).
    + destruct l; [|contradiction]. pose proof (Bz_end ev S HB Et) as B. cbn [work_off] in *. destruct (event_at ev (set_todo [] S)) as [e|]; [|exact B]. destruct (evalue e) as [[v|t]|]; try exact B. destruct (edefused e); [exact B|discriminate].
Qed.
End Module.
