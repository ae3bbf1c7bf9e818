(** A simulation without environment never ends with an exception about scheduling: every step keeps the invariant. *)
From Coq Require Import Lia Sorted.
From Verif Require Import Base BaseFacts Chunks DecMem Buffers BufferFacts Productions ProdSpec LearnFacts Sim SimFacts CompileFacts Run RunSpec RunFacts LiftFacts SafeSpec RequestFacts QueueFacts SafeFacts SafeSteps SafeMain FailFacts.
Local Open Scope string_scope.
Local Open Scope list_scope.
Local Open Scope nat_scope.

(** ** Simple facts about events *)

Record Neat (S : sim) : Prop := MkNeat {
  n_end : forall ev, In (WEnd ev) (todo S) -> exists e, event_at ev S = Some e /\ evalue e <> None;
  n_def : forall ev e, event_at ev S = Some e -> evalue e = None -> edefused e = false;
  n_init : forall ev e p, event_at ev S = Some e -> erole e = RInit p -> exists r, proc_at p S = Some r /\ ev = Datatypes.S (pown r) }.

Lemma Neat_gen S S' : Neat S -> (forall ev, In (WEnd ev) (todo S') -> In (WEnd ev) (todo S) \/ exists e, event_at ev S = Some e /\ evalue e <> None) ->
  (forall ev e', event_at ev S' = Some e' -> exists e, event_at ev S = Some e /\ erole e' = erole e /\ (evalue e <> None -> evalue e' <> None) /\ (evalue e' = None -> edefused e' = edefused e)) ->
  (forall ev e, event_at ev S = Some e -> exists e', event_at ev S' = Some e') ->
  (forall p r, proc_at p S = Some r -> exists r', proc_at p S' = Some r' /\ pown r' = pown r) -> Neat S'.
Proof.
  intros [A B C] Ht He Hx Hp. constructor.
  - intros ev Hw. assert (X : exists e, event_at ev S = Some e /\ evalue e <> None) by (destruct (Ht ev Hw) as [X|X]; auto). destruct X as (e & E1 & E2).
    destruct (Hx _ _ E1) as (e' & E'). exists e'. split; [exact E'|]. destruct (He _ _ E') as (x & X1 & _ & X2 & _). assert (x = e) by congruence. subst x. auto.
  - intros ev e' E' V. destruct (He _ _ E') as (e & X1 & _ & X2 & X3). rewrite (X3 V). apply (B ev e X1). destruct (evalue e); [elim X2; [discriminate|exact V]|reflexivity].
  - intros ev e' p E' R. destruct (He _ _ E') as (e & X1 & X2 & _). destruct (C ev e p X1) as (r & Hr & Er); [congruence|]. destruct (Hp _ _ Hr) as (r' & Hr' & Eo). exists r'. split; [exact Hr'|congruence].
Qed.
Lemma Neat_gro S S' : Neat S -> Gro S S' -> Neat S'.
Proof.
  intros [A B C] G. constructor.
  - intros ev Hw. rewrite (r_todo _ _ G) in Hw. destruct (A ev Hw) as (e & E1 & E2). destruct (r_old _ _ G _ _ E1) as (e' & E' & L). exists e'. split; [exact E'|exact (later_value _ _ L E2)].
  - intros ev e' E' V. destruct (event_at ev S) as [e|] eqn:E.
    + destruct (r_old _ _ G _ _ E) as (x & Hx & L). assert (x = e') by congruence. subst x. destruct L as (_ & L1 & _ & L2). rewrite L1. apply (B ev e E). destruct L2 as [L2|[L2 _]]; congruence.
    + destruct (r_new _ _ G _ _ E' E) as (_ & _ & _ & X & _). auto.
  - intros ev e' p E' R. destruct (event_at ev S) as [e|] eqn:E.
    + destruct (r_old _ _ G _ _ E) as (x & Hx & L & _). assert (x = e') by congruence. subst x. destruct (C ev e p E) as (r & Hr & Er); [congruence|]. exists r. split; [exact (r_prs _ _ G _ _ Hr)|exact Er].
    + destruct (r_new _ _ G _ _ E' E) as (_ & _ & _ & _ & X). auto.
Qed.
Lemma Neat_event S ev e e' l : Neat S -> event_at ev S = Some e -> erole e' = erole e -> evalue e' = evalue e -> (evalue e = None -> edefused e' = edefused e) ->
  (forall i, In (WEnd i) l -> In (WEnd i) (todo S)) -> Neat (set_todo l (changed ev e' S)).
Proof.
  intros H He Hr Hv Hd Ht. assert (At : forall i, event_at i (set_todo l (changed ev e' S)) = if Nat.eqb i ev then Some e' else event_at i S) by (intros i; exact (at_changed i ev e' e S He)).
  apply (Neat_gen S); auto.
  - intros i x Hx. rewrite At in Hx. destruct (Nat.eqb_spec i ev) as [->|N]; [|exists x; auto]. injection Hx as <-. exists e. split; [exact He|]. split; [exact Hr|]. split; [congruence|]. intros V. apply Hd. congruence.
  - intros i x Hx. rewrite At. destruct (Nat.eqb i ev); eauto.
  - intros p r Hp. exists r. auto.
Qed.
Lemma Neat_todo S l : Neat S -> (forall i, In (WEnd i) l -> In (WEnd i) (todo S)) -> Neat (set_todo l S).
Proof. intros H Ht. apply (Neat_gen S); auto; [intros i x Hx; exists x; auto|intros i x Hx; eauto|intros p r Hp; exists r; auto]. Qed.
Lemma Neat_prc S p r r' : Neat S -> proc_at p S = Some r -> pown r' = pown r -> Neat (set_prs (upd (prs S) p r') S).
Proof.
  intros H Hp Ho. apply (Neat_gen S); auto; [intros i x Hx; exists x; auto|intros i x Hx; eauto|]. intros i x Hx. rewrite (pat_upd i p r' r S Hp).
  destruct (Nat.eqb_spec i p) as [->|N]; [exists r'; split; [reflexivity|congruence]|exists x; auto].
Qed.
Lemma Neat_finished S p r o e : Neat S -> proc_at p S = Some r -> event_at (pown r) S = Some e -> Neat (finished p r o e S).
Proof.
  intros H Hp He.
  assert (At : forall i, event_at i (finished p r o e S) = if Nat.eqb i (pown r) then Some (valued o e) else event_at i S) by (intros i; exact (at_changed i (pown r) (valued o e) e _ He)).
  apply (Neat_gen S); auto.
  - intros i x Hx. rewrite At in Hx. destruct (Nat.eqb_spec i (pown r)) as [->|N]; [|exists x; auto]. injection Hx as <-. exists e. split; [exact He|]. split; [reflexivity|]. split; [discriminate|]. discriminate.
  - intros i x Hx. rewrite At. destruct (Nat.eqb i (pown r)); eauto.
  - intros i x Hx. set (r' := MkPrc (pkind r) (pown r) (ptarget r) KEnd). assert (X : proc_at i (finished p r o e S) = if Nat.eqb i p then Some r' else proc_at i S) by exact (pat_upd i p r' r S Hp). rewrite X.
    destruct (Nat.eqb_spec i p) as [->|N]; [exists r'; split; [reflexivity|cbn; congruence]|exists x; auto].
Qed.

(** The process [p] runs. *)
Lemma run_parts O p o l r S : Inv S -> hasenv S = false -> todo S = WRun p o :: l -> proc_at p S = Some r -> pcode r <> KEnd ->
  let x := go_on O p (pcode r) o (set_todo l S) in
  Inv (fst x) /\ Gro (set_todo l S) (fst x) /\ proc_at p (fst x) = Some r.
Proof.
  intros H Env E Hr Kc. destruct (Inv_tail _ _ _ H E) as [H1 Nc]. set (S1 := set_todo l S) in *.
  pose proof (i_kind _ H1 p r Hr) as [Hk Hkn]. pose proof (i_fits _ H1 p r Hr) as Hf. destruct Hk as [Hk|Hk]; [contradiction|].
  assert (Ho : ~ outside (pcode r)).
  { intros Ho. assert (X : hasenv S1 = true) by (apply (i_env _ H1 p r Hr); rewrite Hk; destruct (pcode r); try contradiction; exact I). change (hasenv S1) with (hasenv S) in X. congruence. }
  assert (A1 : Acted S1) by (split; [exact (i_pact _ H)|exact (i_acts _ H)]).
  assert (G : tri2 (go_on O p (pcode r) o) S1 (lands (pkind r))).
  { apply (go_on_ok _ _ _ _ _ (ptarget r)); auto; [apply (i_env _ H1 _ _ Hr)|]. intros v t -> Du. apply (i_due _ H p r v t Hr); [|exact Du]. rewrite E. left. reflexivity. }
  pose proof (gro_go_on O p (pcode r) o S1 A1 Env Ho) as R. unfold tri2 in G. unfold gro in R. destruct (go_on O p (pcode r) o S1) as [S2 x]. cbn [fst]. destruct G as (H2 & _). destruct R as (R & _).
  split; [exact H2|]. split; [exact R|]. exact (r_prs _ _ R _ _ Hr).
Qed.

Lemma neat_hand_over S p r c ev : Neat S -> proc_at p S = Some r -> Neat (hand_over p ev (set_prc p (fun r => MkPrc (pkind r) (pown r) (ptarget r) c) S)).
Proof.
  intros H Hr. rewrite (set_prc_at _ _ _ _ Hr). set (r1 := MkPrc (pkind r) (pown r) (ptarget r) c). set (S1 := set_prs (upd (prs S) p r1) S).
  assert (H1 : Neat S1) by (apply (Neat_prc S p r r1 H Hr eq_refl)). assert (Hr1 : proc_at p S1 = Some r1) by (unfold S1; rewrite (pat_upd p p r1 r S Hr), Nat.eqb_refl; reflexivity).
  unfold hand_over. destruct (event_at ev S1) as [e|] eqn:He; [|exact H1].
  assert (Wait : Neat (set_prc p (fun r => MkPrc (pkind r) (pown r) ev (pcode r)) (exec_ (add_cb ev (CResume p)) S1))).
  { unfold exec_, add_cb, set_event, upd_. cbn [fst]. change (nth_error (evs S1) ev) with (event_at ev S1). rewrite He. set (e' := MkEvt _ _ _ _). fold (changed ev e' S1).
    assert (H2 : Neat (changed ev e' S1)) by exact (Neat_event S1 ev e e' (todo S1) H1 He eq_refl eq_refl (fun _ => eq_refl) (fun i x => x)).
    assert (Hr2 : proc_at p (changed ev e' S1) = Some r1) by exact Hr1. rewrite (set_prc_at _ _ _ _ Hr2). apply (Neat_prc _ p r1); auto. }
  destruct (ecbs e) as [k|]; [exact Wait|]. destruct (evalue e) as [u|] eqn:Eu; [|exact Wait]. rewrite (defuse_eq ev e u S1 He).
  destruct u as [v|t]; cbn [defused].
  - apply Neat_todo; [exact H1|]. intros i [D|D]; [discriminate|exact D].
  - apply (Neat_event S1 ev e); auto; [rewrite Eu; discriminate|]. intros i [D|D]; [discriminate|exact D].
Qed.

Lemma neat_step O S S' : Inv S -> Ok S -> Neat S -> sim_step O S = Some S' -> Neat S'.
Proof.
  intros HI K H. destruct (o_all _ K) as (a & Q & Se & _ & Td). unfold sim_step. rewrite (o_dead _ K). destruct (todo S) as [|w l] eqn:Et.
  - destruct (pop_min (heap S)) as [[q h]|] eqn:Ep; [|discriminate]. cbv zeta. change (event_at (qev q) (set_now (qtime q) (set_queue (eid S) h S))) with (event_at (qev q) S).
    destruct (pop_min_ok _ _ _ Ep) as [Hq _]. destruct (q_heap _ _ Q q Hq) as (_ & _ & e & He & Ve & _). rewrite He. unfold exec_, set_event, upd_. cbn [fst evs set_now set_queue]. change (nth_error (evs S) (qev q)) with (event_at (qev q) S). rewrite He. intros [= <-].
    set (e' := MkEvt (erole e) (evalue e) (edefused e) None). set (S2 := set_todo _ _).
    assert (At : forall i, event_at i S2 = if Nat.eqb i (qev q) then Some e' else event_at i S) by (intros i; exact (at_changed i (qev q) e' e S He)).
    apply (Neat_gen S); auto.
    + intros ev Hw. apply in_app_or in Hw. destruct Hw as [Hw|[[= <-]|[]]]; [apply in_map_iff in Hw; destruct Hw as (c & D & _); discriminate|]. right. exists e. auto.
    + intros i x Hx. rewrite At in Hx. destruct (Nat.eqb_spec i (qev q)) as [->|N]; [|exists x; auto]. injection Hx as <-. exists e. auto.
    + intros i x Hx. rewrite At. destruct (Nat.eqb i (qev q)); eauto.
    + intros p r Hp. exists r. auto.
  - intros [= <-]. assert (Tl : forall i, In (WEnd i) l -> In (WEnd i) (todo S)) by (intros i Hi; rewrite Et; right; exact Hi). pose proof (Neat_todo S l H Tl) as H1. set (S1 := set_todo l S) in *.
    destruct w as [ev [p|p|c]|p o|ev]; cbn [work_off].
    + change (event_at ev S1) with (event_at ev S). destruct (event_at ev S) as [e|] eqn:He; [|exact H1]. destruct (evalue e) as [u|] eqn:Eu; [|exact H1].
      assert (He1 : event_at ev S1 = Some e) by exact He. rewrite (defuse_eq ev e u S1 He1). destruct u as [v|t]; cbn [defused].
      * apply Neat_todo; [exact H1|]. intros i [D|D]; [discriminate|exact D].
      * apply (Neat_event S1 ev e); auto; [rewrite Eu; discriminate|]. intros i [D|D]; [discriminate|exact D].
    + destruct (ended p S1); [exact H1|]. change (nth_error (prs S1) p) with (proc_at p S1). destruct (proc_at p S1) as [r|] eqn:Hr; [|exact H1].
      unfold exec_, set_event, upd_. cbn [fst]. change (nth_error (evs S1) (ptarget r)) with (event_at (ptarget r) S1). destruct (event_at (ptarget r) S1) as [e|] eqn:He.
      * apply (Neat_event S1 (ptarget r) e); auto. intros i [D|D]; [discriminate|exact D].
      * apply Neat_todo; [exact H1|]. intros i [D|D]; [discriminate|exact D].
    + unfold Todo in Td. rewrite Et in Td. contradiction.
    + change (nth_error (prs S1) p) with (proc_at p S). destruct (proc_at p S) as [r|] eqn:Hr; [|exact H1].
      assert (Kc : pcode r <> KEnd). { unfold Todo in Td. rewrite Et in Td. destruct l as [|[]]; try contradiction. destruct l; [|contradiction]. destruct Td as (_ & x & Hx & X & _). congruence. }
      pose proof (run_parts O p o l r S HI (o_env _ K) Et Hr Kc) as R. cbv zeta in R. fold S1 in R. destruct (go_on O p (pcode r) o S1) as [S2 x]. cbn [fst] in R. destruct R as (H2 & G & Hr2). pose proof (Neat_gro _ _ H1 G) as N2.
      destruct (i_own _ H2 p r Hr2) as (eo & Heo & _).
      destruct x as [[c ev|v]|t]; [exact (neat_hand_over S2 p r c ev N2 Hr2)|rewrite (end_eq p r _ eo S2 Hr2 Heo); apply Neat_finished; assumption|rewrite (end_eq p r _ eo S2 Hr2 Heo); apply Neat_finished; assumption].
    + change (event_at ev S1) with (event_at ev S). destruct (event_at ev S) as [e|]; [|exact H1]. destruct (evalue e) as [[v|t]|]; try exact H1. destruct (edefused e); [exact H1|]. destruct H1 as [A B C]. constructor; assumption.
Qed.

(** ** The failure of a process *)

Lemma sound_safe e : sound e -> ~ dangerous e.
Proof. unfold sound. intros H (A & t & B & C). rewrite B in H. destruct H as [(x & ->)|[H _]]; [destruct C; discriminate|congruence]. Qed.
Lemma own_quiet p r e S : Inv S -> Que (Some p) S -> proc_at p S = Some r -> pcode r <> KEnd -> (forall b n, pkind r <> Some (GLocal b n)) -> event_at (pown r) S = Some e -> ecbs e = Some [].
Proof.
  intros HI Q Hr Kc Hk He. destruct (i_own _ HI p r Hr) as (e1 & H1 & R1 & V1). assert (e1 = e) by congruence. subst e1.
  destruct (q_cbs _ _ Q _ _ He) as [[_ C]|[C|[(p' & r' & C1 & C2 & C3 & C4 & C5)|(p' & _ & C)]]]; [elim C; apply V1; exact Kc|exact C| |congruence].
  exfalso. destruct (q_wait _ _ Q p' r' C3 C2 C4) as (e2 & H2 & _ & Ai). rewrite C5 in H2. assert (e2 = e) by congruence. subst e2. pose proof (i_fits _ HI p' r' C3) as Hf. rewrite C5 in *.
  assert (Nr : ~ role_at (pown r) RAct S) by (intros (x & Hx & Rx); congruence).
  assert (Nf : firm (pcode r') -> fits S (pcode r') (pown r) -> False).
  { intros F Ff. apply (firm_own p _ _ S HI F Ff); [eauto|]. exists e. auto. }
  destruct (pcode r'); cbn [aims] in Ai; cbn [firm] in Nf; try contradiction; try (exact (Nf I Hf)); try (destruct Ai; congruence).
  - apply Nr. rewrite Ai. apply (q_pact _ _ Q).
  - apply Nr. exact (q_acts _ _ Q _ _ Ai).
Qed.

Lemma doom_start p r e W ev S1 S2 x : Inv S1 -> Inv S2 -> Que (Some p) S1 -> Sem W (Some p) S1 -> Neat S1 -> Neat S2 -> Gro S1 S2 -> dead S1 = None -> hasenv S1 = false -> todo S1 = [WEnd ev] ->
  proc_at p S1 = Some r -> pcode r <> KEnd -> (forall b n, pkind r <> Some (GLocal b n)) -> event_at (pown r) S2 = Some e ->
  exists q0, Doom p q0 (finished p r (Bad (TExn x)) e S2).
Proof.
  intros I1 I2 Q Se N1 N2 G Hd Henv Ht Hr Kc Hk He. pose proof (r_prs _ _ G _ _ Hr) as Hr2.
  destruct (i_own _ I2 p r Hr2) as (e0 & H0 & R0 & V0). assert (e0 = e) by congruence. subst e0. assert (Ve : evalue e = None) by (apply V0; exact Kc).
  assert (Ce : ecbs e = Some []).
  { destruct (i_own _ I1 p r Hr) as (e1 & H1 & _). destruct (r_old _ _ G _ _ H1) as (e2 & H2 & L). assert (e2 = e) by congruence. subst e2. destruct L as (_ & _ & L & _). rewrite L. exact (own_quiet p r e1 S1 I1 Q Hr Kc Hk H1). }
  set (S' := finished p r (Bad (TExn x)) e S2). set (q0 := MkQ (now S2 + 0) NORMAL (eid S2) (pown r)). exists q0.
  assert (At : forall i, event_at i S' = if Nat.eqb i (pown r) then Some (valued (Bad (TExn x)) e) else event_at i S2) by (intros i; exact (at_changed i (pown r) (valued (Bad (TExn x)) e) e _ He)).
  set (r' := MkPrc (pkind r) (pown r) (ptarget r) KEnd). assert (Pr : forall i, proc_at i S' = if Nat.eqb i p then Some r' else proc_at i S2) by (intros i; exact (pat_upd i p r' r S2 Hr2)).
  assert (Nd : ~ dangerous (valued (Bad (TExn x)) e)) by (intros (_ & t & [= <-] & [D|D]); discriminate).
  assert (Safe : forall i y, event_at i S2 = Some y -> (exists z, event_at i S1 = Some z) -> ~ dangerous y).
  { intros i y Hy (z & Hz) D. destruct (r_old _ _ G _ _ Hz) as (y' & Hy' & L). assert (y' = y) by congruence. subst y'. exact (sound_safe z (s_vals _ _ _ Se _ _ Hz) (later_safe _ _ L D)). }
  assert (Ent : forall i y, event_at i S2 = Some y -> evalue y <> None -> ~ dangerous y -> exists y', event_at i S' = Some y' /\ evalue y' <> None /\ ~ dangerous y').
  { intros i y Hy Vy Dy. rewrite At. destruct (Nat.eqb i (pown r)); [|eauto]. exists (valued (Bad (TExn x)) e). split; [reflexivity|]. split; [discriminate|exact Nd]. }
  destruct (r_heap _ _ G) as (new & Eh & Hn). assert (Eh' : heap S' = heap S2 ++ [q0]) by reflexivity.
  assert (Cb : forall i y c, event_at i S' = Some y -> In c (cbs_of y) -> match c with CResume p' => going p' S' | CInt _ => True | CCheck _ => False end).
  { intros i y c Hy Hc. rewrite At in Hy. destruct (Nat.eqb_spec i (pown r)) as [->|Ni].
    - injection Hy as <-. unfold cbs_of in Hc. cbn [ecbs valued] in Hc. rewrite Ce in Hc. contradiction.
    - destruct (event_at i S1) as [z|] eqn:Hz.
      + destruct (r_old _ _ G _ _ Hz) as (y' & Hy' & L). assert (y' = y) by congruence. subst y'. destruct L as (_ & _ & L & _). unfold cbs_of in Hc. rewrite L in Hc.
        destruct (q_cbs _ _ Q _ _ Hz) as [[C _]|[C|[(p' & x' & C1 & C2 & C3 & C4 & C5)|(p' & C & _)]]].
        * rewrite C in Hc. contradiction.
        * rewrite C in Hc. contradiction.
        * rewrite C1 in Hc. destruct Hc as [<-|[]]. exists x'. rewrite Pr. destruct (Nat.eqb_spec p' p) as [->|Np]; [congruence|]. split; [exact (r_prs _ _ G _ _ C3)|exact C4].
        * rewrite C in Hc. destruct Hc as [<-|[]]. exact I.
      + destruct (r_new _ _ G _ _ Hy Hz) as (_ & F1 & F2 & _). destruct c as [p'|p'|c]; [|exact I|exact (F2 c Hc)]. destruct (F1 p' Hc) as (L & x' & X1 & X2). exists x'. rewrite Pr.
        destruct (Nat.eqb_spec p' p) as [->|Np]; [apply pat_old in Hr; lia|auto]. }
  constructor.
  - change (dead S2 = None). rewrite (r_dead _ _ G). exact Hd.
  - change (hasenv S2 = false). rewrite (r_hasenv _ _ G). exact Henv.
  - exists (valued (Bad (TExn x)) e), x. cbn [qev q0]. rewrite At, Nat.eqb_refl. split; [reflexivity|]. split; [exact R0|]. split; [reflexivity|]. split; [exact (n_def _ N2 _ _ He Ve)|exact Ce].
  - rewrite Eh'. apply in_or_app. right. left. reflexivity.
  - cbn. lia.
  - reflexivity.
  - exists r'. rewrite Pr, Nat.eqb_refl. split; [reflexivity|exact Hk].
  - intros q Hq. rewrite Eh' in Hq. change (eid S') with (Datatypes.S (eid S2)). apply in_app_or in Hq. destruct Hq as [Hq|[<-|[]]].
    + rewrite Eh in Hq. apply in_app_or in Hq. assert (X : qid q < eid S2 /\ harmless S2 q).
      { destruct Hq as [Hq|Hq]; [|destruct (Hn q Hq) as [? ?]; split; [lia|assumption]]. destruct (q_heap _ _ Q q Hq) as (A & _ & z & Hz & Vz & _). split; [pose proof (r_eid _ _ G); lia|].
        destruct (r_old _ _ G _ _ Hz) as (y & Hy & L). exists y. split; [exact Hy|]. split; [exact (later_value _ _ L Vz)|]. apply (Safe _ _ Hy). eauto. }
      destruct X as (X1 & y & Y1 & Y2 & Y3). split; [lia|]. destruct (Ent _ _ Y1 Y2 Y3) as (y' & Z1 & Z2 & Z3). exists y'. split; [exact Z1|]. split; [exact Z2|]. intros D. contradiction.
    + cbn [qid q0 qev]. split; [lia|]. exists (valued (Bad (TExn x)) e). rewrite At, Nat.eqb_refl. split; [reflexivity|]. split; [discriminate|]. intros D. contradiction.
  - intros i y p' Hy Hc. exact (Cb i y _ Hy Hc).
  - intros i y c Hy Hc. exact (Cb i y _ Hy Hc).
  - intros w Hw. change (todo S') with (todo S2) in Hw. rewrite (r_todo _ _ G), Ht in Hw. destruct Hw as [<-|[]]. cbn [todo_ok].
    destruct (n_end _ N1 ev) as (z & Z1 & Z2); [rewrite Ht; left; reflexivity|]. destruct (r_old _ _ G _ _ Z1) as (y & Hy & L). apply (Ent ev y Hy (later_value _ _ L Z2)). apply (Safe _ _ Hy). eauto.
Qed.

(** ** A process runs *)

Lemma Sem_todo W a S l : Sem W a S -> Sem W a (set_todo l S).
Proof. intros [A B C D E F G H J]. constructor; assumption. Qed.
Lemma run_step O p o ev S : Inv S -> mannered (ss S) -> Ok S -> Neat S -> todo S = [WRun p o; WEnd ev] ->
  let S' := work_off O (WRun p o) (set_todo [WEnd ev] S) in Ok S' \/ exists q0, Doom p q0 S'.
Proof.
  intros HI Mn K N Et. cbv zeta. destruct (o_all _ K) as (a & Q & Se & Ph & Td). unfold Todo in Td. rewrite Et in Td. destruct Td as (-> & r & Hr & Kc & Ac).
  destruct (Inv_tail _ _ _ HI Et) as [I1 _]. pose proof (run_parts O p o [WEnd ev] r S HI (o_env _ K) Et Hr Kc) as R. cbv zeta in R.
  assert (N1 : Neat (set_todo [WEnd ev] S)) by (apply Neat_todo; [exact N|]; intros i [[= ->]|[]]; rewrite Et; right; left; reflexivity).
  set (S1 := set_todo [WEnd ev] S) in *. assert (Q1 : Que (Some p) S1) by (apply (Que_same _ S); auto). pose proof (Sem_todo _ _ _ [WEnd ev] Se) as Se1. fold S1 in Se1.
  assert (Hr1 : proc_at p S1 = Some r) by exact Hr. assert (Ac1 : Act p (pcode r) o S1) by exact Ac. assert (Ph1 : ruling (Some p) S1 \/ Phase (Some p) S1) by exact Ph.
  assert (Rs : Rest S1) by (split; [exact (o_dead _ K)|]; split; [exact (o_env _ K)|]; exists ev; reflexivity).
  cbn [work_off]. change (nth_error (prs S1) p) with (proc_at p S1). rewrite Hr1.
  (* Failures of process 0 and of the process of a buffer. *)
  assert (Fail : Lands p (go_on O p (pcode r) o S1) -> (forall b n, pkind r <> Some (GLocal b n)) ->
    Ok match go_on O p (pcode r) o S1 with (S', inl (NWait c ev)) => hand_over p ev (set_prc p (fun r => MkPrc (pkind r) (pown r) (ptarget r) c) S') | (S', inl (NDone v)) => end_process p (Good v) S' | (S', inr t) => end_process p (Bad t) S' end \/
    exists q0, Doom p q0 match go_on O p (pcode r) o S1 with (S', inl (NWait c ev)) => hand_over p ev (set_prc p (fun r => MkPrc (pkind r) (pown r) (ptarget r) c) S') | (S', inl (NDone v)) => end_process p (Good v) S' | (S', inr t) => end_process p (Bad t) S' end).
  { intros L Hk. destruct (go_on O p (pcode r) o S1) as [S2 x]. cbn [fst] in R. destruct R as (I2 & G & Hr2). unfold Lands in L. destruct x as [[c ev'|v]|t]; [left; exact L|left; exact L|right].
    destruct L as (x & ->). destruct (i_own _ I2 p r Hr2) as (e & He & _). rewrite (end_eq p r _ e S2 Hr2 He). exact (doom_start p r e _ ev S1 S2 x I1 I2 Q1 Se1 N1 (Neat_gro _ _ N1 G) G (o_dead _ K) (o_env _ K) eq_refl Hr1 Kc Hk He). }
  pose proof (i_kind _ HI p r Hr) as [Hk _]. destruct Hk as [Hk|Hk]; [contradiction|]. pose proof (q_who _ _ Q p r Hr) as Hw. destruct (s_main _ _ _ Se) as (r0 & P0 & M0).
  assert (N0 : ~ mcode (pcode r) -> p <> 0) by (intros X ->; apply X; congruence).
  assert (Mn' : mcode (pcode r) -> p = 0) by (intros X; destruct (pcode r); try contradiction; exact Hw).
  destruct (pcode r) as [|f| |k|n|n|n pro|n pro|b n g|b n e0 g|g|pro g|e0|e0|] eqn:Ec; try contradiction.
  1,2,3,4: rewrite (Mn' I) in *; apply Fail; [rewrite <- Ec in *; apply (main_ok O r o S1); auto; [apply (Sem_weaken _ _ _ _ Se1); intros n [X _]; congruence|rewrite Ec; exact I]|intros b n; rewrite Hk; discriminate].
  1,2,3,4: apply Fail; [|intros b m; rewrite Hk; discriminate]; assert (Np : p <> 0) by (apply N0; exact (fun x => x)); rewrite <- Ec in *; apply (extra_ok O p n r o S1); auto;
    [constructor; [exact Rs|exact Q1|apply (Sem_weaken _ _ _ _ Se1); intros m [_ X]; exact X]|rewrite Ec; reflexivity|destruct Ph1 as [[X|(p' & r' & [= <-] & A & B)]|X]; [congruence|exfalso|exact X]; assert (r' = r) by congruence; subst r'; rewrite Ec in B; exact B].
  all: assert (Np : p <> 0) by (apply N0; exact (fun x => x)); pose proof (s_loc _ _ _ Se1 p r Hr1) as Lo; rewrite Ec in Lo.
  all: assert (L : Local p b r S1) by (constructor; auto;
    [constructor; [exact Rs|exact Q1|apply (Sem_weaken _ _ _ _ Se1); intros m [_ X]; exact X]
    |intros m Hm; destruct (s_ext _ _ _ Se1 m p Hm) as (x & i & A & B & _); assert (x = r) by congruence; subst x; rewrite Ec in B; exact B
    |congruence
    |destruct (i_own _ I1 p r Hr1) as (e & A & B & C); exists e; split; [exact A|]; split; [exact B|]; apply C; congruence
    |destruct b; [split; [rewrite Ec; exact I|]; destruct Lo as [X|Lo]; [congruence|exact Lo]|rewrite Ec; exact (fun x => x)]
    |destruct b; [exact I|]; destruct Ph1 as [[X|(p' & r' & [= <-] & A & B)]|X]; [congruence|exfalso|exact X]; assert (r' = r) by congruence; subst r'; rewrite Ec in B; exact B]).
  all: assert (LL : LandsL p (go_on O p (pcode r) o S1)) by (apply (local_ok O p b n r g o S1 L Mn (o_env _ K)); [rewrite Ec; eauto|rewrite Ec; exact Ac1|intros ->; exact Lo]).
  all: left; rewrite Ec in LL; destruct LL as [L1 L2]; destruct (go_on O p _ o S1) as [S2 x]; destruct x as [[c ev'|v]|t]; [exact L1|exact L1|exact L2].
Qed.

(** ** The callbacks of an event *)

Lemma tight_same a a' n S S' : prs S' = prs S -> (forall m, atrig m S' = atrig m S) -> (a' = a \/ a = None) -> tight a' n S' -> tight a n S.
Proof.
  intros Ep At Ha (p & r & Hp & Hc). exists p, r. unfold proc_at in *. rewrite Ep in Hp. split; [exact Hp|]. rewrite At in Hc. destruct Hc as [Hc|(C1 & C2 & C3)]; [auto|right]. split; [exact C1|]. split; [destruct Ha; congruence|exact C3].
Qed.
Lemma flow_same a a' g S S' : prs S' = prs S -> (forall m, atrig m S' = atrig m S) -> (a' = a \/ a = None) -> ss S' = ss S -> flow a S g -> flow a' S' g.
Proof.
  intros Ep At Ha Es (c & b & A & B & C). exists c, b. unfold cnt. rewrite Es. split; [exact A|]. split; [exact B|]. intros n Tn. exact (C n (tight_same a a' n S S' Ep At Ha Tn)).
Qed.
Lemma over_same a a' S S' : prs S' = prs S -> (forall m, atrig m S' = atrig m S) -> (a' = a \/ a = None) -> ss S' = ss S -> over a S -> over a' S'.
Proof.
  intros Ep At Ha Es Ov. unfold over, cnt in *. rewrite Es. destruct Ov as [[A B]|B]; [left; split; [exact A|]|right]; intros n Tn; exact (B n (tight_same a a' n S S' Ep At Ha Tn)).
Qed.
Lemma Act_same p c o S S' : backed S -> keeps S S' -> prs S' = prs S -> heap S' = heap S -> ss S' = ss S -> early S' = early S -> (forall m, atrig m S' = atrig m S) -> Act p c o S -> Act p c o S'.
Proof.
  intros B K Ep Eh Es Ee At H. assert (Hh : hits p S' = hits p S) by (apply hits_same; assumption).
  assert (Nc : nochief S -> nochief S') by (intros X q r Hr; apply (X q r); unfold proc_at in *; rewrite <- Ep; exact Hr).
  assert (Ca : calm S -> calm S') by (intros X q Hq; apply X; rewrite <- Eh; exact Hq).
  assert (Tt : forall n, tight (Some p) n S' -> tight (Some p) n S) by (intros n; apply tight_same; auto).
  unfold Act in *. unfold cnt in *. rewrite Es, Ee, Hh. destruct o as [v|[x| |]]; auto.
  destruct c as [|f| |k|n|n|n pro|n pro|[|] n g|[|] n e0 g|g|pro g|e0|e0|]; auto; try (destruct H as [H1 H2]; split; auto); try (apply (flow_same (Some p) (Some p) g S S'); auto).
  destruct H2 as [H2 H3]. split; [auto|]. apply (over_same (Some p) (Some p) S S'); auto.
Qed.

Lemma resume_cb O p ev ev' S : Inv S -> Ok S -> todo S = [WCb ev (CResume p); WEnd ev'] -> Ok (work_off O (WCb ev (CResume p)) (set_todo [WEnd ev'] S)).
Proof.
  intros HI K Et. destruct (o_all _ K) as (a & Q & Se & Ph & Td). unfold Todo in Td. rewrite Et in Td. destruct Td as (-> & r & e & o & Hr & He & Ve & Kc & Ac).
  cbn [work_off]. change (event_at ev (set_todo [WEnd ev'] S)) with (event_at ev S). rewrite He, Ve.
  rewrite (defuse_eq ev e o (set_todo [WEnd ev'] S)) by exact He. cbn [todo]. 
  set (S2 := defused ev e o S). assert (E2 : set_todo (WRun p o :: todo (set_todo [WEnd ev'] S)) (defused ev e o (set_todo [WEnd ev'] S)) = set_todo [WRun p o; WEnd ev'] S2) by (destruct o; reflexivity).
  rewrite E2. clear E2.
  assert (Ev : S2 = S \/ exists e', S2 = changed ev e' S /\ erole e' = erole e /\ evalue e' = evalue e /\ sound e').
  { unfold S2, defused. destruct o as [v|t]; [left; reflexivity|right]. eexists. split; [reflexivity|]. split; [reflexivity|]. split; [reflexivity|]. pose proof (s_vals _ _ _ Se ev e He) as X. unfold sound in *. cbn [evalue edefused erole]. rewrite Ve in *. destruct X as [X|[_ X]]; auto. }
  pose proof (Que_defused (Some p) ev e o S Q He) as Q2. fold S2 in Q2.
  assert (Same : prs S2 = prs S /\ heap S2 = heap S /\ ss S2 = ss S /\ early S2 = early S /\ dead S2 = dead S /\ hasenv S2 = hasenv S) by (unfold S2, defused; destruct o; repeat split; reflexivity).
  destruct Same as (Ep & Eh & Es & Ee & Ed & Ex).
  assert (At : forall m, atrig m S2 = atrig m S) by (destruct Ev as [->|(e' & -> & _ & V & _)]; [reflexivity|]; intros m; apply (atrig_same m ev e); [exact He|unfold triggered; rewrite V; reflexivity]).
  assert (Ke : keeps S S2) by (destruct Ev as [->|(e' & -> & R & _)]; [intros i x Hx; exists x; auto|exact (keeps_changed ev e e' S He R)]).
  constructor; [change (dead S2 = None); rewrite Ed; exact (o_dead _ K)|change (hasenv S2 = false); rewrite Ex; exact (o_env _ K)|]. exists (Some p).
  split; [apply (Que_same _ S2); auto|]. split; [|split].
  - apply Sem_todo. change (Sem (fun n : string => Some p <> Some 0 /\ called S2 n) (Some p) S2). destruct Ev as [->|(e' & Ev & R & V & So)]; [exact Se|]. rewrite Ev.
    exact (Sem_changed _ _ _ _ Q Se (fun n x => x) ev e e' He R ltac:(unfold triggered; rewrite V; reflexivity) So).
  - destruct Ph as [Ph|Ph]; [left|right].
    + destruct Ph as [Ph|(p' & r' & A & B & C)]; [left; exact Ph|right]. exists p', r'. split; [exact A|]. split; [|exact C]. change (proc_at p' S2 = Some r'). unfold proc_at. rewrite Ep. exact B.
    + change (Phase (Some p) S2). apply (Phase_easy (Some p) S S2 Ph); [intros i x; unfold proc_at; rewrite Ep; auto|intros i x; unfold proc_at; rewrite Ep; auto| |rewrite Es; reflexivity|intros m; rewrite At; auto].
      destruct Ev as [->|(e' & -> & R & V & _)]; [apply holds_refl; reflexivity|apply (holds_changed ev e); auto].
  - unfold Todo. cbn [todo set_todo]. split; [reflexivity|]. exists r. split; [change (proc_at p S2 = Some r); unfold proc_at; rewrite Ep; exact Hr|]. split; [exact Kc|].
    change (Act p (pcode r) o S2). apply (Act_same p _ o S); auto. exact (Que_backed _ _ Q).
Qed.

Lemma Sem_pick (W W' : string -> Prop) (p : nat) S : Sem W None S -> (forall n, W n -> W' n) -> Sem W' (Some p) S.
Proof.
  intros [A B C D E F G H J] Hw. constructor; auto.
  - intros q i Hq R. destruct (D q i Hq R) as (r & Hr & X). exists r. split; [exact Hr|]. destruct (pcode r) as [| | | | | | | |[|] ? ?|[|] ? ? ?| | | | |]; cbn [hittable] in *; auto. destruct X as [X|X]; [discriminate|auto].
  - intros i r Hr. pose proof (F i r Hr) as X. destruct (pcode r) as [| | | | | | | |[|] ? ?|[|] ? ? ?| | | | |]; auto; (destruct X as [X|X]; [discriminate|auto]).
  - intros i r n Hr Hc _ Ha. assert (Ni : None <> Some i) by discriminate. destruct (H i r n Hr Hc Ni Ha); auto.
Qed.
Lemma ended_iff p r S : Inv S -> proc_at p S = Some r -> ended p S = true <-> pcode r = KEnd.
Proof.
  intros HI Hr. destruct (i_own _ HI p r Hr) as (e & He & _ & V). unfold ended, trig, own_event. change (nth_error (prs S) p) with (proc_at p S). rewrite Hr, He. unfold triggered.
  destruct (evalue e); split; try discriminate; auto.
  - intros _. destruct (pcode r) eqn:C; auto; (assert (X : Some o = None) by (apply V; discriminate); discriminate).
  - intros C. exfalso. apply V; auto.
Qed.

Lemma interrupt_cb O p ev ev' S : Inv S -> Ok S -> todo S = [WCb ev (CInt p); WEnd ev'] -> Ok (work_off O (WCb ev (CInt p)) (set_todo [WEnd ev'] S)).
Proof.
  intros HI K Et. destruct (o_all _ K) as (a & Q & Se & Ph & Td). unfold Todo in Td. rewrite Et in Td. destruct Td as (-> & r & Hr & Hc).
  destruct Ph as [[D|(p' & r' & D & _)]|Ph]; try discriminate. pose proof (ended_iff p r S HI Hr) as En. cbn [work_off]. change (ended p (set_todo [WEnd ev'] S)) with (ended p S). change (nth_error (prs (set_todo [WEnd ev'] S)) p) with (proc_at p S). rewrite Hr.
  destruct (ended p S).
  - constructor; [exact (o_dead _ K)|exact (o_env _ K)|]. exists None. split; [apply (Que_same _ S); auto|]. split; [apply Sem_todo; exact Se|]. split; [right; exact Ph|reflexivity].
  - assert (Kc : pcode r <> KEnd) by (intros X; apply En in X; discriminate). assert (Nn : None <> Some p) by discriminate. destruct (q_wait _ _ Q p r Hr Nn Kc) as (e & He & Ce & Ai).
    unfold exec_, set_event, upd_. cbn [fst evs set_todo]. change (nth_error (evs S) (ptarget r)) with (event_at (ptarget r) S). rewrite He, Ce. cbn [remove_cb cb_eqb]. rewrite Nat.eqb_refl. cbn [set_evs todo].
    match goal with |- Ok ?x => change x with (set_todo [WRun p (Bad TInterrupt); WEnd ev'] (torn (ptarget r) e S)) end. set (S2 := torn (ptarget r) e S).
    pose proof (Que_torn p r e S Q Hr He Ce) as Q2. fold S2 in Q2. destruct (s_main _ _ _ Se) as (r0 & P0 & M0).
    assert (Np : p <> 0).
    { intros ->. assert (r0 = r) by congruence. subst r0. destruct Hc as [Hc|[(n & Hc & _)|(n & e0 & g & Hc)]]; [contradiction|destruct (pcode r); contradiction|rewrite Hc in M0; exact M0]. }
    assert (At : forall m, atrig m S2 = atrig m S) by (intros m; apply (atrig_same m _ e); auto).
    assert (So : sound (MkEvt (erole e) (evalue e) (edefused e) (Some []))) by exact (s_vals _ _ _ Se _ _ He).
    constructor; [exact (o_dead _ K)|exact (o_env _ K)|]. exists (Some p). split; [apply (Que_same _ S2); auto|]. split; [|split].
    + apply Sem_todo. apply (Sem_pick (fun n => None <> Some 0 /\ called S n)); [exact (Sem_changed _ _ _ _ Q Se (fun n x => x) (ptarget r) e (MkEvt (erole e) (evalue e) (edefused e) (Some [])) He eq_refl eq_refl So)|]. intros n [_ X]. split; [congruence|exact X].
    + right. change (Phase (Some p) S2). apply (Phase_gen None (Some p) S S2 Ph); auto.
      * apply (holds_changed (ptarget r) e); auto.
      * intros n Tn. right. split; [|exact (Nat.le_refl _)]. apply (tight_same None (Some p) n S S2); auto.
    + unfold Todo. cbn [todo set_todo]. split; [reflexivity|]. exists r. split; [exact Hr|]. split; [exact Kc|]. change (Act p (pcode r) (Bad TInterrupt) S2).
      assert (Hh : hits p S2 = hits p S) by (apply hits_same; [exact (keeps_changed (ptarget r) e (MkEvt (erole e) (evalue e) (edefused e) (Some [])) S He eq_refl)|exact (Que_backed _ _ Q)|reflexivity]).
      destruct Hc as [Hc|[(n & Hc & Hl)|(n & e0 & g & Hc)]]; [contradiction| |rewrite Hc; exact I]. unfold Act. rewrite Hh. destruct (pcode r); try contradiction; cbn [busy] in Hc; subst; exact Hl.
Qed.

Lemma end_step O ev S : Ok S -> Neat S -> todo S = [WEnd ev] -> let S' := work_off O (WEnd ev) (set_todo [] S) in Ok S' \/ Fallen S'.
Proof.
  intros K N Et. cbv zeta. destruct (o_all _ K) as (a & Q & Se & Ph & Td). unfold Todo in Td. rewrite Et in Td. subst a. destruct Ph as [[D|(p' & r' & D & _)]|Ph]; try discriminate.
  assert (Done : Ok (set_todo [] S)).
  { constructor; [exact (o_dead _ K)|exact (o_env _ K)|]. exists None. split; [apply (Que_same _ S); auto|]. split; [apply Sem_todo; exact Se|]. split; [right; exact Ph|reflexivity]. }
  cbn [work_off]. change (event_at ev (set_todo [] S)) with (event_at ev S). destruct (n_end _ N ev) as (e & He & Ve); [rewrite Et; left; reflexivity|]. rewrite He. pose proof (s_vals _ _ _ Se _ _ He) as So. unfold sound in So.
  destruct (evalue e) as [[v|t]|]; auto. destruct (edefused e); auto. right. destruct So as [(x & ->)|[D _]]; [|discriminate]. exists x. reflexivity.
Qed.

(** ** The next event *)

Section Pop.
Variables (S : sim) (q : qent) (h : list qent) (e : evt).
Hypothesis HI : Inv S.
Hypothesis Q : Que None S.
Hypothesis Se : Sem (called S) None S.
Hypothesis N : Neat S.
Hypothesis Hpop : pop_min (heap S) = Some (q, h).
Hypothesis He : event_at (qev q) S = Some e.
Let S' := popped q h e S.
Let e' := MkEvt (erole e) (evalue e) (edefused e) None.

Lemma at_popped i : event_at i S' = if Nat.eqb i (qev q) then Some e' else event_at i S.
Proof. exact (at_changed i (qev q) e' e S He). Qed.
Lemma keeps_popped : keeps S S'.
Proof. exact (keeps_changed (qev q) e e' S He eq_refl). Qed.
Lemma holds_popped : holds S S'.
Proof. exact (holds_changed (qev q) e e' S He (or_introl eq_refl)). Qed.
Lemma atrig_popped n : atrig n S' = atrig n S.
Proof. exact (atrig_same n (qev q) e e' S He eq_refl). Qed.
Lemma in_popped x : In x (heap S) <-> x = q \/ In x h.
Proof.
  destruct (pop_min_split _ _ _ Hpop) as (l1 & l2 & -> & -> & _). rewrite !in_app_iff. cbn [In]. intuition.
Qed.
Lemma popped_first x : In x (heap S) -> before q x.
Proof. destruct (pop_min_split _ _ _ Hpop) as (l1 & l2 & E & _ & M). intros Hx. exact (M x Hx). Qed.
Lemma q_value : evalue e <> None.
Proof. assert (Hq : In q (heap S)) by (apply in_popped; auto). destruct (q_heap _ _ Q q Hq) as (_ & _ & x & Hx & V & _). congruence. Qed.
Lemma hits_popped p : hits p S = (if is_int p S q then 1 else 0) + hits p S'.
Proof.
  destruct (pop_min_split _ _ _ Hpop) as (l1 & l2 & E1 & E2 & _). unfold hits. change (heap S') with h.
  assert (X : filter (is_int p S') h = filter (is_int p S) h).
  { apply filter_ext_in. intros x Hx. apply (keeps_int S S' p x keeps_popped). apply (Que_backed _ _ Q). apply in_popped. auto. }
  rewrite X, E1, E2, !filter_app, !app_length. cbn [filter]. destruct (is_int p S q); cbn [List.length]; lia.
Qed.
Lemma init_target p r : proc_at p S = Some r -> (exists q', In q' (heap S) /\ role_at (qev q') (RInit p) S /\ qev q' = qev q) -> (exists b n g, pcode r = KLocal0 b n g) -> resumed e = Some p.
Proof.
  intros Hr (q' & _ & (x & Hx & Rx) & Eq) (b & n & g & Hc). assert (Nn : None <> Some p) by discriminate. destruct (q_wait _ _ Q p r Hr Nn) as (y & Hy & Cy & Ai); [congruence|]. rewrite Hc in Ai. destruct Ai as [Ry _].
  destruct (n_init _ N _ _ _ Hx Rx) as (r1 & A1 & B1). destruct (n_init _ N _ _ _ Hy Ry) as (r2 & A2 & B2). assert (ptarget r = qev q) by congruence. rewrite H in Hy. assert (y = e) by congruence. subst y. unfold resumed. rewrite Cy. reflexivity.
Qed.
Lemma resumed_at p : resumed e = Some p -> exists r, ecbs e = Some [CResume p] /\ proc_at p S = Some r /\ pcode r <> KEnd /\ ptarget r = qev q.
Proof.
  unfold resumed. destruct (q_cbs _ _ Q _ _ He) as [[C _]|[C|[(p' & r' & C1 & C2 & C3 & C4 & C5)|(p' & C & _)]]]; try (rewrite C; discriminate). rewrite C1. intros [= <-]. exists r'. auto.
Qed.
Lemma Sem_popped : Sem (fun n => resumed e <> Some 0 /\ called S' n) (resumed e) S'.
Proof.
  constructor.
  - exact (s_main _ _ _ Se).
  - exact (s_ext _ _ _ Se).
  - intros i x Hx. rewrite at_popped in Hx. destruct (Nat.eqb i (qev q)); [|exact (s_vals _ _ _ Se i x Hx)]. injection Hx as <-. exact (s_vals _ _ _ Se _ _ He).
  - intros x p Hx R. change (In x h) in Hx. assert (Hx' : In x (heap S)) by (apply in_popped; auto). destruct (Que_backed _ _ Q x Hx') as (y & Hy).
    destruct (s_hit _ _ _ Se x p Hx' (keeps_back _ _ _ _ _ keeps_popped Hy R)) as (r & Hr & Ht). exists r. split; [exact Hr|].
    destruct (pcode r) as [| | | | | | | |[|] n g|[|] ? ? ?| | | | |] eqn:Hc; cbn [hittable] in *; auto. destruct Ht as [Ht|(q' & H1 & H2 & H3)]; [discriminate|].
    pose proof H1 as H1'. apply in_popped in H1. destruct H1 as [->|H1]; [left; apply (init_target p r Hr); eauto|right]. exists q'. split; [exact H1|]. split; [exact (keeps_role _ _ _ _ keeps_popped H2)|exact H3].
  - intros n p Hn. pose proof (hits_popped p) as X. pose proof (s_cnt _ _ _ Se n p Hn) as Y. change (cnt n S') with (cnt n S). destruct (is_int p S q); lia.
  - intros p r Hr. pose proof (s_loc _ _ _ Se p r Hr) as X. destruct (pcode r) as [| | | | | | | |[|] ? ?|[|] ? ? ?| | | | |]; auto; (destruct X as [X|X]; [discriminate|right; exact X]).
  - intros p r n Hr Hb. rewrite atrig_popped. exact (s_busy _ _ _ Se p r n Hr Hb).
  - intros p r n Hr Hc Ha Ht. rewrite atrig_popped in Ht. assert (Nn : None <> Some p) by discriminate. destruct (s_idle _ _ _ Se p r n Hr Hc Nn Ht) as [X|X]; [left; exact X|right].
    destruct X as (r0 & k & qa & ev & P0 & C0 & An & Ia & Ea & Mi).
    assert (Nq : qa <> q).
    { intros ->. apply Ha. destruct (q_wait _ _ Q p r Hr Nn) as (y & Hy & Cy & Ai); [congruence|]. rewrite Hc in Ai. cbn [aims] in Ai. assert (ptarget r = qev q) by congruence. rewrite H in Hy. assert (y = e) by congruence. subst y. unfold resumed. rewrite Cy. reflexivity. }
    split.
    + intros R0. destruct (resumed_at 0 R0) as (r1 & _ & P1 & _ & T1). assert (r1 = r0) by congruence. subst r1. assert (Hq : In q (heap S)) by (apply in_popped; auto). destruct (Mi q Hq (eq_sym T1)) as (M1 & M2 & M3). pose proof (popped_first qa Ia) as B. unfold before in B. lia.
    + exists r0, k, qa, ev. split; [exact P0|]. split; [exact C0|]. split; [exact An|]. split; [change (In qa h); apply in_popped in Ia; destruct Ia as [Ia|Ia]; [contradiction|exact Ia]|]. split; [exact Ea|].
      intros qm Hm Em. apply Mi; [apply in_popped; right; exact Hm|exact Em].
  - intros l El. destruct (s_early _ _ _ Se l El) as (A & B & C). split; [exact A|]. split; [exact B|]. intros p r n Hr Hx. rewrite atrig_popped. exact (C p r n Hr Hx).
Qed.
Lemma Phase_popped a : Phase None S -> Phase a S'.
Proof.
  intros Ph. apply (Phase_gen None a S S' Ph); auto; [exact holds_popped|]. intros n Tn. right. split; [|exact (Nat.le_refl _)]. apply (tight_same None a n S S'); auto. exact atrig_popped.
Qed.
Lemma chief_main p r : proc_at p S = Some r -> chief (pcode r) -> exists r0 f, proc_at 0 S = Some r0 /\ pcode r0 = KProcPro f /\ ptarget r0 = pown r.
Proof. intros Hr Hc. pose proof (s_loc _ _ _ Se p r Hr) as X. destruct (pcode r) as [| | | | | | | |[|] ? ?|[|] ? ? ?| | | | |]; try contradiction; (destruct X as [X|X]; [discriminate|exact X]). Qed.
Lemma pown_inj p1 p2 r1 r2 : proc_at p1 S = Some r1 -> proc_at p2 S = Some r2 -> pown r1 = pown r2 -> p1 = p2.
Proof. intros A B C. destruct (i_own _ HI _ _ A) as (x & X1 & X2 & _). destruct (i_own _ HI _ _ B) as (y & Y1 & Y2 & _). congruence. Qed.

Lemma Act_popped p r o : Phase None S -> resumed e = Some p -> proc_at p S = Some r -> evalue e = Some o -> Act p (pcode r) o S'.
Proof.
  intros Ph Re Hr Ve. destruct (resumed_at p Re) as (r1 & Ce & Hr1 & Kc & Tr). assert (r1 = r) by congruence. subst r1.
  pose proof (s_vals _ _ _ Se _ _ He) as So. unfold sound in So. rewrite Ve in So.
  assert (Nn : None <> Some p) by discriminate. destruct (q_wait _ _ Q p r Hr Nn Kc) as (y & Hy & _ & Ai). rewrite Tr in Hy, Ai. assert (y = e) by congruence. subst y. clear Hy.
  pose proof (q_who _ _ Q p r Hr) as Hw. pose proof (Phase_popped (Some p) Ph) as Ph'. destruct Ph' as (r0 & P0 & Ph'). change (proc_at 0 S = Some r0) in P0.
  assert (Calm : forall pro, erole e = ROwn pro -> calm S' /\ hits p S' = 0).
  { intros pro Ro. assert (Ca : calm S') by (apply (popped_calm S q h e Q Hpop He); rewrite Ro; reflexivity). split; [exact Ca|]. exact (calm_hits (resumed e) p S' (Que_popped S q h e Q Hpop He) Ca). }
  assert (Val : forall i x, proc_at i S = Some x -> pown x = qev q -> pcode x = KEnd).
  { intros i x Hx Ex. destruct (i_own _ HI i x Hx) as (y & Y1 & _ & Y2). rewrite Ex in Y1. assert (y = e) by congruence. subst y. destruct (pcode x) eqn:Cx; auto; (assert (Z : evalue e = None) by (apply Y2; discriminate); congruence). }
  assert (Nc : (forall f, pcode r0 <> KProcPro f) -> nochief S').
  { intros X i x Hx Cx. destruct (chief_main i x Hx Cx) as (r2 & f & A & B & C). apply (X f). congruence. }
  destruct o as [v|t].
  2: { destruct So as [(x & ->)|[_ (p' & R)]]; [exact I|]. destruct (i_role _ HI _ _ _ He R) as [[D|D] _]; congruence. }
  destruct (pcode r) as [|f| |k|n|n|n pro|n pro|[|] n g|[|] n e0 g|g|pro g|e0|e0|] eqn:Hc; cbn [Act]; cbn [who aims] in Hw, Ai; try exact I; try contradiction.
  - subst p. assert (r0 = r) by congruence. subst r0. rewrite Hc in *. split; [apply Nc; discriminate|exact Ph'].
  - subst p. assert (r0 = r) by congruence. subst r0. rewrite Hc in *. destruct Ai as (pro & Ro). split; [|split; [exact (proj1 (Calm pro Ro))|]].
    + intros i x Hx Cx. destruct (chief_main i x Hx Cx) as (r2 & f2 & A & B & C). assert (r2 = r) by congruence. subst r2. assert (Kx : pcode x = KEnd) by (apply (Val i x Hx); congruence). rewrite Kx in Cx. exact Cx.
    + destruct Ph' as (i & x & Hx & Ex & Px). change (proc_at i S = Some x) in Hx. rewrite (Val i x Hx) in Px by congruence. destruct Px as [(y & z & Hy & Vy)|Px]; [exfalso|exact Px]. rewrite Ex, Tr in Hy. rewrite at_popped, Nat.eqb_refl in Hy. injection Hy as <-. cbn in Vy. congruence.
  - subst p. assert (r0 = r) by congruence. subst r0. rewrite Hc in *. split; [apply Nc; discriminate|exact Ph'].
  - subst p. assert (r0 = r) by congruence. subst r0. rewrite Hc in *. split; [apply Nc; discriminate|exact Ph'].
  - change (early S' = None) with (early S = None). destruct (early S) as [l|] eqn:El; [exfalso|reflexivity]. destruct (s_early _ _ _ Se l El) as (_ & _ & X). destruct (X p r n Hr) as [_ Y]; [rewrite Hc; reflexivity|].
    unfold atrig, trig in Y. rewrite Ai, He in Y. unfold triggered in Y. rewrite Ve in Y. discriminate.
  - destruct Ai as (i & Ro). split; [exact (proj2 (Calm i Ro))|]. intros g ->. exact So.
  - destruct Ai as (i & Ro). exact (proj2 (Calm i Ro)).
  - destruct (chief_main p r Hr) as (r2 & f & A & B & C); [rewrite Hc; exact I|]. assert (r2 = r0) by congruence. subst r2. rewrite B in Ph'. destruct Ph' as (i & x & Hx & Ex & Px). change (proc_at i S = Some x) in Hx.
    assert (i = p) by (apply (pown_inj i p x r Hx Hr); congruence). subst i. assert (x = r) by congruence. subst x. rewrite Hc in Px. exact Px.
  - destruct (chief_main p r Hr) as (r2 & f & A & B & C); [rewrite Hc; exact I|]. assert (r2 = r0) by congruence. subst r2. rewrite B in Ph'. destruct Ph' as (i & x & Hx & Ex & Px). change (proc_at i S = Some x) in Hx.
    assert (i = p) by (apply (pown_inj i p x r Hx Hr); congruence). subst i. assert (x = r) by congruence. subst x. rewrite Hc in Px. exact Px.
Qed.
Lemma int_popped p : ecbs e = Some [CInt p] -> erole e = RInt p -> exists r, proc_at p S' = Some r /\
  (pcode r = KEnd \/ (exists n, busy n (pcode r) /\ hits p S' + 1 <= cnt n S') \/ exists n e g, pcode r = KLocal false n e g).
Proof.
  intros Ce Ro. assert (Hq : In q (heap S)) by (apply in_popped; auto). assert (R : role_at (qev q) (RInt p) S) by (exists e; auto).
  destruct (s_hit _ _ _ Se q p Hq R) as (r & Hr & Ht). exists r. split; [exact Hr|].
  assert (Hh : hits p S = 1 + hits p S') by (rewrite hits_popped; apply is_int_iff in R; rewrite R; reflexivity). pose proof (q_who _ _ Q p r Hr) as Hw.
  destruct (pcode r) as [| | | | | |n pro|n pro|[|] n g|[|] ? ? ?| | | | |] eqn:Hc; cbn [hittable who] in Ht, Hw; try contradiction; auto.
  - right; left. exists n. split; [reflexivity|]. change (cnt n S') with (cnt n S). pose proof (s_cnt _ _ _ Se n p Hw). lia.
  - right; left. exists n. split; [reflexivity|]. change (cnt n S') with (cnt n S). pose proof (s_cnt _ _ _ Se n p Hw). lia.
  - exfalso. destruct Ht as [Ht|(q' & H1 & H2 & H3)]; [discriminate|]. pose proof (popped_first q' H1) as B. destruct (q_heap _ _ Q q Hq) as (_ & _ & x & Hx & _ & Ux). destruct (q_heap _ _ Q q' H1) as (_ & _ & y & Hy & _ & Uy).
    assert (x = e) by congruence. subst x. rewrite Ro in Ux. cbn [urgent] in Ux. destruct H2 as (y' & Hy' & Ry). assert (y' = y) by congruence. subst y'. rewrite Ry in Uy. cbn [urgent] in Uy. destruct Ux as [U1 U2], Uy as [U3 U4]. unfold before in B. rewrite U1, U2, U3, U4 in B. lia.
  - right; right. eauto.
Qed.
Lemma Ok_popped : dead S = None -> hasenv S = false -> Phase None S -> Ok S'.
Proof.
  intros Hd Hx Ph. constructor; [exact Hd|exact Hx|]. exists (resumed e). split; [exact (Que_popped S q h e Q Hpop He)|]. split; [exact Sem_popped|]. split; [right; exact (Phase_popped _ Ph)|].
  unfold Todo. change (todo S') with (map (WCb (qev q)) (match ecbs e with Some l => l | None => [] end) ++ [WEnd (qev q)]).
  destruct (q_cbs _ _ Q _ _ He) as [[C _]|[C|[(p & r & C1 & C2 & C3 & C4 & C5)|(p & C1 & C2)]]].
  - unfold resumed. rewrite C. reflexivity.
  - unfold resumed. rewrite C. reflexivity.
  - assert (Re : resumed e = Some p) by (unfold resumed; rewrite C1; reflexivity). rewrite Re, C1. cbn [map app]. split; [reflexivity|]. assert (Vq : exists o, evalue e = Some o) by (pose proof q_value as V; destruct (evalue e) as [o|]; [eauto|contradiction]). destruct Vq as (o & Ve). exists r, e', o.
    split; [exact C3|]. split; [rewrite at_popped, Nat.eqb_refl; reflexivity|]. split; [exact Ve|]. split; [exact C4|]. exact (Act_popped p r o Ph Re C3 Ve).
  - unfold resumed. rewrite C1. cbn [map app]. split; [reflexivity|]. exact (int_popped p C1 C2).
Qed.
End Pop.

Lemma ok_step O S S' : Inv S -> mannered (ss S) -> Ok S -> Neat S -> sim_step O S = Some S' -> Ok S' \/ (exists p0 q0, Doom p0 q0 S') \/ Fallen S'.
Proof.
  intros HI Mn K N H. pose proof (o_all _ K) as (a & Q & Se & Ph & Td). unfold sim_step in H. rewrite (o_dead _ K) in H. unfold Todo in Td. destruct (todo S) as [|w l] eqn:Et.
  - subst a. destruct Ph as [[D|(p' & r' & D & _)]|Ph]; try discriminate. destruct (pop_min (heap S)) as [[q h]|] eqn:Ep; [|discriminate]. cbv zeta in H. change (event_at (qev q) (set_now (qtime q) (set_queue (eid S) h S))) with (event_at (qev q) S) in H.
    destruct (pop_min_ok _ _ _ Ep) as [Hq _]. destruct (q_heap _ _ Q q Hq) as (_ & _ & e & He & _). rewrite He in H. unfold exec_, set_event, upd_ in H. cbn [fst evs set_now set_queue] in H. change (nth_error (evs S) (qev q)) with (event_at (qev q) S) in H. rewrite He in H. injection H as <-.
    left. refine (Ok_popped S q h e HI Q _ N Ep He (o_dead _ K) (o_env _ K) Ph). apply (Sem_weaken _ _ _ _ Se). intros n [_ X]. exact X.
  - injection H as <-. destruct w as [ev [p|p|c]|p o|ev]; try contradiction.
    + destruct l as [|[]]; try contradiction. destruct l; [|contradiction]. left. apply resume_cb; assumption.
    + destruct l as [|[]]; try contradiction. destruct l; [|contradiction]. left. apply interrupt_cb; assumption.
    + destruct l as [|[]]; try contradiction. destruct l; [|contradiction]. destruct (run_step O p o ev S HI Mn K N Et) as [X|(q0 & X)]; [left; exact X|right; left; eauto].
    + destruct l; [|contradiction]. destruct (end_step O ev S K N Et) as [X|X]; auto.
Qed.

(** ** The beginning *)

Record Morning (S : sim) : Prop := MkMorning {
  b_main : exists r, proc_at 0 S = Some r /\ pcode r = KProc0;
  b_ext : forall n p, dget (extras S) n = Some p -> exists r ev, proc_at p S = Some r /\ pcode r = KExtra0 n /\ dget (acts S) n = Some ev;
  b_evs : forall ev e, event_at ev S = Some e -> edefused e = false /\
            match erole e with
            | RInit p => evalue e = Some (Good XUnit) /\ exists r, proc_at p S = Some r /\ ev = Datatypes.S (pown r)
            | RAct | ROwn _ => evalue e = None
            | _ => False
            end }.
Lemma Morning_act0 S S' : Morning S -> evs S' = evs (added act0 S) -> prs S' = prs S -> extras S' = extras S -> (forall n ev, dget (acts S) n = Some ev -> exists ev', dget (acts S') n = Some ev') -> Morning S'.
Proof.
  intros [A B C] Ee Ep Ex Ea. assert (Pr : forall p, proc_at p S' = proc_at p S) by (intros p; unfold proc_at; rewrite Ep; reflexivity). constructor.
  - rewrite Pr. exact A.
  - intros n p Hn. rewrite Ex in Hn. destruct (B n p Hn) as (r & ev & X & Y & Z). destruct (Ea _ _ Z) as (ev' & Z'). exists r, ev'. rewrite Pr. auto.
  - intros ev e He. assert (X : event_at ev (added act0 S) = Some e) by (unfold event_at in *; rewrite <- Ee; exact He). rewrite at_added in X. destruct (Nat.eqb ev (List.length (evs S))).
    + injection X as <-. split; reflexivity.
    + destruct (C ev e X) as [C1 C2]. split; [exact C1|]. destruct (erole e); auto. destruct C2 as (C2 & r & C3 & C4). split; [exact C2|]. exists r. rewrite Pr. auto.
Qed.
Lemma spawned_evs c S : (forall ev e, event_at ev S = Some e -> edefused e = false /\
            match erole e with
            | RInit p => evalue e = Some (Good XUnit) /\ exists r, proc_at p S = Some r /\ ev = Datatypes.S (pown r)
            | RAct | ROwn _ => evalue e = None
            | _ => False
            end) -> forall ev e, event_at ev (spawned c S) = Some e -> edefused e = false /\
            match erole e with
            | RInit p => evalue e = Some (Good XUnit) /\ exists r, proc_at p (spawned c S) = Some r /\ ev = Datatypes.S (pown r)
            | RAct | ROwn _ => evalue e = None
            | _ => False
            end.
Proof.
  intros C ev e He. rewrite at_spawned in He. destruct (Nat.eqb_spec ev (Datatypes.S (List.length (evs S)))) as [Ev|_].
  - injection He as <-. split; [reflexivity|]. cbn [erole]. split; [reflexivity|]. eexists. rewrite pat_spawned, Nat.eqb_refl. split; [reflexivity|exact Ev].
  - destruct (Nat.eqb ev (List.length (evs S))); [injection He as <-; split; reflexivity|]. destruct (C ev e He) as [C1 C2]. split; [exact C1|]. destruct (erole e); auto. destruct C2 as (C2 & r & C3 & C4). split; [exact C2|]. exists r. split; [apply pat_spawned_old; exact C3|exact C4].
Qed.
Lemma Morning_extra n S : Morning S -> Morning (extra_made n S).
Proof.
  intros [A B C]. unfold extra_made. set (S0 := set_extras (dset (extras S) n (List.length (prs S))) S). set (S1 := spawned (KExtra0 n) S0). cbv zeta.
  constructor.
  - destruct A as (r & A1 & A2). exists r. split; [|exact A2]. change (proc_at 0 S1 = Some r). unfold S1. apply pat_spawned_old. exact A1.
  - intros m p Hm. change (dget (dset (extras S) n (List.length (prs S))) m = Some p) in Hm. 
    match goal with |- exists r ev, _ /\ _ /\ dget ?x _ = _ => change x with (dset (acts S) n (List.length (evs S1))) end. rewrite dget_dset in Hm |- *. destruct (String.eqb_spec n m) as [<-|Nm].
    + injection Hm as <-. change (proc_at ?i _) with (proc_at i S1). unfold S1. rewrite pat_spawned, Nat.eqb_refl. eauto.
    + destruct (B m p Hm) as (r & ev & X & Y & Z). exists r, ev. split; [|auto]. change (proc_at p S1 = Some r). unfold S1. apply pat_spawned_old. exact X.
  - intros ev e He. change (event_at ev (added act0 S1) = Some e) in He. rewrite at_added in He. destruct (Nat.eqb ev (List.length (evs S1))); [injection He as <-; split; reflexivity|]. exact (spawned_evs (KExtra0 n) S0 C ev e He).
Qed.
Definition same_rest (S S' : sim) : Prop := early S' = early S /\ ss S' = ss S /\ todo S' = todo S /\ dead S' = dead S /\ hasenv S' = hasenv S.
Lemma make_extras_Morning names : forall S, Morning S -> Morning (fst (make_extras names S)) /\ same_rest S (fst (make_extras names S)).
Proof.
  induction names as [|n names IH]; intros S H; [split; [exact H|repeat split]|]. rewrite make_extras_eq. destruct (String.eqb n PROCEDURAL); [apply IH; exact H|]. destruct (IH _ (Morning_extra n S H)) as [X Y]. split; [exact X|exact Y].
Qed.
Lemma init_Morning t s : NoDup (dkeys (snames s)) -> Morning (sim_init t s None) /\ same_rest (sim_start t s) (sim_init t s None).
Proof.
  intros Nd. set (S1 := spawned KProc0 (sim_start t s)).
  assert (M1 : Morning S1).
  { constructor.
    - eexists. split; reflexivity.
    - discriminate.
    - apply spawned_evs. intros [|[|ev]] e He; try discriminate. injection He as <-. split; reflexivity. }
  destruct (make_extras_Morning (dkeys (snames s)) S1 M1) as [M2 R2]. assert (E2 : snd (make_extras (dkeys (snames s)) S1) = inl tt).
  { clear. generalize S1. induction (dkeys (snames s)) as [|n l IH]; intros S; [reflexivity|]. rewrite make_extras_eq. apply IH. }
  destruct (make_extras (dkeys (snames s)) S1) as [S2 x] eqn:Em. cbn [fst snd] in *. subst x. rewrite (init_eq _ _ _ Em). split; [|exact R2]. apply (Morning_act0 S2); auto. intros n ev Hn. exists ev. exact Hn.
Qed.

Lemma init_safe t s : NoDup (dkeys (snames s)) -> sprocs s = [] -> SafeFacts.Ok (sim_init t s None) /\ Neat (sim_init t s None).
Proof.
  intros Nd Es. destruct (init_Que t s Nd) as [Q Hd]. destruct (init_Morning t s Nd) as [[A B C] (R1 & R2 & R3 & R4 & R5)]. set (S := sim_init t s None) in *.
  assert (Cn : forall n, cnt n S = 0) by (intros n; unfold cnt; rewrite R2; change (ss (sim_start t s)) with s; rewrite Es; reflexivity).
  assert (Ni : forall ev p, ~ role_at ev (RInt p) S).
  { intros ev p (e & He & Ro). destruct (C ev e He) as [_ X]. rewrite Ro in X. exact X. }
  assert (At : forall n, atrig n S = false).
  { intros n. unfold atrig. destruct (dget (acts S) n) as [ev|] eqn:En; [|reflexivity]. destruct (q_acts _ _ Q n ev En) as (e & He & Ro). destruct (C ev e He) as [_ X]. rewrite Ro in X. unfold trig. rewrite He. unfold triggered. rewrite X. reflexivity. }
  destruct A as (r0 & P0 & C0). split.
  - constructor; [exact R4|exact R5|]. exists None. split; [exact Q|]. split; [|split].
    + constructor.
      * exists r0. split; [exact P0|rewrite C0; exact I].
      * intros n p Hn. destruct (B n p Hn) as (r & ev & X & Y & Z). exists r, ev. split; [exact X|]. split; [rewrite Y; reflexivity|exact Z].
      * intros ev e He. destruct (C ev e He) as [_ X]. unfold sound. destruct (erole e); try contradiction; try (rewrite X; exact I). destruct X as [X _]. rewrite X. exact I.
      * intros q p _ R. elim (Ni _ _ R).
      * intros n p Hn. rewrite hits_zero; [lia|]. intros q _. apply Ni.
      * intros p r Hr. specialize (Hd p r Hr). destruct (pcode r); try contradiction; exact I.
      * intros p r n Hr Hb. specialize (Hd p r Hr). destruct (pcode r); contradiction.
      * intros p r n Hr Hc. specialize (Hd p r Hr). rewrite Hc in Hd. contradiction.
      * intros l El. rewrite R1 in El. injection El as <-. split; [reflexivity|]. split; [exists r0; auto|]. intros p r n Hr Hx. split; [|apply At]. left. specialize (Hd p r Hr). destruct (pcode r); try contradiction. cbn in Hx. subst. reflexivity.
    + right. exists r0. split; [exact P0|]. rewrite C0. intros n _. apply Cn.
    + unfold Todo. rewrite R3. reflexivity.
  - constructor.
    + intros ev Hw. rewrite R3 in Hw. contradiction.
    + intros ev e He _. exact (proj1 (C ev e He)).
    + intros ev e p He Ro. destruct (C ev e He) as [_ X]. rewrite Ro in X. exact (proj2 X).
Qed.

(** ** Every run *)

Section Runs.
Variables (O : oracle) (tie : string -> string -> bool).
Hypothesis CO : compiles_with O tie.
Definition Safe (S : sim) : Prop := (SafeFacts.Ok S /\ Neat S) \/ (exists p0 q0, Doom p0 q0 S) \/ Last S \/ Fallen S.
Notation kept := (LiftFacts.inv mannered anyone (fine mannered)).

Lemma safe_step S S' : Inv S -> mannered (ss S) -> Safe S -> sim_step O S = Some S' -> Safe S'.
Proof.
  intros HI Mn [[K N]|[(p0 & q0 & D)|[L|F]]] Hs.
  - pose proof (neat_step O S S' HI K N Hs) as N2. destruct (ok_step O S S' HI Mn K N Hs) as [Y|[Y|Y]]; [left; auto|right; left; exact Y|right; right; right; exact Y].
  - destruct (doom_step O p0 q0 S S' HI D Hs) as [Y|[Y|Y]]; [right; left; eauto|right; right; left; exact Y|right; right; right; exact Y].
  - right; right; right. exact (last_step O S S' L Hs).
  - rewrite (fallen_step O S F) in Hs. discriminate.
Qed.
Lemma safe_dead S f : Safe S -> dead S = Some f -> exists x, f = TExn x.
Proof.
  intros [[K _]|[(p0 & q0 & D)|[[L _]|(x & F)]]] Hf; [rewrite (o_dead _ K) in Hf; discriminate|rewrite (d_dead _ _ _ D) in Hf; discriminate|congruence|]. exists x. congruence.
Qed.

Section Model.
Variables (t : Z) (s : st).
Hypothesis H1 : one_request s.
Hypothesis H2 : plain_names s.
Hypothesis V : svars s = nobind.
Hypothesis Es : sprocs s = [].
Hypothesis Nd : NoDup (dkeys (snames s)).

Theorem sim_safe S : sim_runs O (sim_init t s None) S -> Safe S.
Proof.
  intros R. assert (X : forall S1, sim_runs O (sim_init t s None) S1 -> mannered (ss S1)) by (intros S1 R1; exact (sim_mannered O tie CO t s S1 H1 H2 V R1)).
  remember (sim_init t s None) as S0 eqn:E0. induction R as [|S0 S1 S2 R IH Hs].
  - subst. left. apply init_safe; assumption.
  - specialize (IH E0 X). assert (HI : Inv S1) by (subst S0; exact (sim_ok O t s None S1 R)). exact (safe_step S1 S2 HI (X S1 R) IH Hs).
Qed.
Theorem sim_no_scheduling S f : sim_runs O (sim_init t s None) S -> dead S = Some f -> ~ scheduling f.
Proof. intros R Hf Sc. destruct (safe_dead S f (sim_safe S R) Hf) as (x & ->). destruct Sc; discriminate. Qed.

(** ** Calls of run() and step() *)

Definition sure (S : sim) : Prop := (Inv2 S /\ kept S /\ Safe S) \/ (heap S = [] /\ todo S = [] /\ dead S = None).
Lemma sure_step S S' : sure S -> sim_step O S = Some S' -> sure S'.
Proof.
  intros [(A & B & C)|(A & B & C)] Hs.
  - left. split; [exact (step_ok2 O S S' A Hs)|]. split; [exact (LiftFacts.inv_step _ _ _ O (fun _ => False) (mannered_governed O tie CO) S S' B Hs)|]. exact (safe_step S S' (proj1 A) (LiftFacts.i_ss _ _ _ _ B) C Hs).
  - unfold sim_step in Hs. rewrite C, B, A in Hs. discriminate.
Qed.
Lemma sure_dead S f : sure S -> dead S = Some f -> exists x, f = TExn x.
Proof. intros [(_ & _ & C)|(_ & _ & C)] Hf; [exact (safe_dead S f C Hf)|congruence]. Qed.
Lemma sure_now u S : sure S -> todo S = [] -> dead S = None -> (now S < u)%Z -> (forall q, In q (heap S) -> (u <= qtime q)%Z) -> sure (set_now u S).
Proof.
  intros [(A & B & C)|(A & _ & _)] Et Hd Lt Hq; [left|right; auto].
  split; [apply Inv2_now; auto; lia|]. split; [destruct B; constructor; assumption|].
  destruct C as [[K N]|[(p0 & q0 & D)|[(_ & ev & _ & _ & L & _)|(x & F)]]]; [left|exfalso|congruence|congruence].
  - split; [|destruct N; constructor; assumption]. destruct K as [K1 K2 (a & Q & Se & Ph & Td)]. constructor; [exact K1|exact K2|]. exists a. split; [|split; [destruct Se; constructor; assumption|split; [exact Ph|exact Td]]].
    destruct Q as [Q1 Q2 Q3 Q4 Q5 Q6 Q7 Q8]. constructor; try assumption. intros q Iq. destruct (Q1 q Iq) as (X1 & X2 & e & He & X3 & X4). split; [exact X1|]. split; [exact (Hq q Iq)|]. exists e. split; [exact He|]. split; [exact X3|].
    destruct (urgent (erole e)); [|exact X4]. destruct X4 as [X4 X5]. specialize (Hq q Iq). lia.
  - pose proof (Hq q0 (d_in _ _ _ D)). pose proof (d_time _ _ _ D). lia.
Qed.
Lemma sure_loop u S S' : loop O u S S' -> sure S -> sure S'.
Proof. intros L. induction L as [| |S S1 S2 Hd Hr Hs L IH]; auto. intros H. apply IH. exact (sure_step S S1 H Hs). Qed.
Lemma sure_drain S S' : drain O S S' -> sure S -> sure S'.
Proof. intros L. induction L as [| |S S1 S2 Hd Ht Hs L IH]; auto. intros H. apply IH. exact (sure_step S S1 H Hs). Qed.
Lemma sure_tick S S' : tick O S S' -> sure S -> sure S'.
Proof. intros (S1 & _ & Hs & D) H. exact (sure_drain S1 S' D (sure_step S S1 H Hs)). Qed.
Lemma sure_end S S' c : at_end O S = (S', c) -> todo S = [] -> dead S = None -> sure S -> sure S' /\ (c = Returns \/ exists x, c = Raises (TExn x)).
Proof.
  unfold at_end. intros E Et Hd H. destruct (peek S) eqn:Ep; [injection E as <- <-; auto|]. apply peek_none in Ep. unfold compile_end in E.
  destruct (compile_now O (ss S)) as [[[[n again] rs]|]|x]; injection E as <- <-; split; eauto; right; auto.
Qed.
Lemma sure_run u S S' c : rest S -> sure S -> run O u S (S', c) -> sure S' /\ (c = Returns \/ exists x, c = Raises (TExn x)).
Proof.
  intros [A B C] H R. inversion R as [L E|S1 f L Lp D E|S1 L Lp D E]; subst.
  - eauto.
  - pose proof (sure_loop u S _ Lp H) as X. split; [exact X|]. destruct (sure_dead _ f X D) as (x & ->). eauto.
  - pose proof (sure_loop u S _ Lp H) as X. destruct (loop_sum _ _ _ _ Lp A) as (I1 & I2 & _ & I4); [lia|congruence|]. destruct (I4 D) as [T4 Q4].
    apply (sure_end _ _ _ E); auto. destruct (Z.eq_dec (now S1) u) as [En|En]; [|apply sure_now; auto; lia]. replace (set_now u S1) with S1; [exact X|]. subst u. destruct S1; reflexivity.
Qed.
Lemma sure_steps l S r : step_ O l S r -> rest S -> sure S -> sure (fst (fst r)) /\ forall f, snd r = Raises f -> exists x, f = TExn x.
Proof.
  intros H. induction H as [S Et Hd Ep|S S1 f Hd T D|S S1 e Hd T D N|S S1 S2 f Hd T D N E|S S1 S2 r Hd T D N E H IH]; cbn [fst snd]; intros R K.
  - split; [exact K|discriminate].
  - pose proof (sure_tick S S1 T K) as X. split; [exact X|]. intros g [= <-]. exact (sure_dead _ _ X D).
  - split; [exact (sure_tick S S1 T K)|discriminate].
  - destruct (tick_sum _ _ _ (re_inv _ R) T) as (_ & _ & I3 & _). destruct (sure_end S1 S2 _ E (I3 D) D (sure_tick S S1 T K)) as [X Y]. split; [exact X|]. intros g [= <-]. destruct Y as [Y|(x & Y)]; [discriminate|]. injection Y as ->. eauto.
  - destruct (tick_sum _ _ _ (re_inv _ R) T) as (I1 & _ & I3 & _). destruct (sure_end S1 S2 _ E (I3 D) D (sure_tick S S1 T K)) as [X _]. destruct (at_end_sum _ _ _ _ E) as (x & ->). apply IH; [|exact X]. constructor; cbn; auto. apply Inv2_ss. exact I1.
Qed.
Lemma session_sure S l : session O t s None S l -> sure S.
Proof.
  intros H. induction H as [|u S l S' H IH R|S l S' l' H IH R].
  - left. split; [apply init_rest|]. split; [|apply sim_safe; constructor]. apply (LiftFacts.inv_init _ _ _ O (fun _ => False) (mannered_governed O tie CO)); [|discriminate]. split; [exact H1|rewrite V; constructor|exact H2].
  - exact (proj1 (sure_run u S S' _ (session_rest _ _ _ _ _ _ H) IH R)).
  - exact (proj1 (sure_steps l S _ R (session_rest _ _ _ _ _ _ H) IH)).
Qed.
Theorem run_exceptions S l u S' f : session O t s None S l -> run O u S (S', Raises f) -> ~ scheduling f.
Proof.
  intros H R Sc. destruct (sure_run u S S' _ (session_rest _ _ _ _ _ _ H) (session_sure S l H) R) as [_ [D|(x & E)]]; [discriminate|]. injection E as ->. destruct Sc; discriminate.
Qed.
Theorem step_exceptions S l S' l' f : session O t s None S l -> step_ O l S (S', l', Raises f) -> ~ scheduling f.
Proof.
  intros H R Sc. destruct (sure_steps l S _ R (session_rest _ _ _ _ _ _ H) (session_sure S l H)) as [_ X]. destruct (X f eq_refl) as (x & ->). destruct Sc; discriminate.
Qed.
End Model.
End Runs.
