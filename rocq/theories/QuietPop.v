(** Simulations without environment: when they stop by themselves, no rule matches.  The next event is taken. *)
From Coq Require Import Lia Sorted.
From Verif Require Import Base BaseFacts Chunks DecMem Buffers BufferFacts Productions ProdSpec LearnFacts Sim SimSpec SimFacts CompileFacts RunFacts LiftFacts SafeSpec RequestFacts RoundFacts QuietGens QueueFacts SafeFacts SafeSteps SafeMain FailFacts SafeRuns BrokenFacts QuietFacts QuietSteps QuietRuns QuietLead QuietMain.
Local Open Scope string_scope.
Local Open Scope list_scope.
Local Open Scope nat_scope.

(** ** Nothing urgent is left *)

Lemma urgent_entry a S q e : Que a S -> In q (heap S) -> event_at (qev q) S = Some e -> urgent (erole e) = true -> qprio q = URGENT /\ qtime q = now S.
Proof. intros Q Hq He U. destruct (q_heap _ _ Q q Hq) as (_ & _ & x & Hx & _ & X). assert (x = e) by congruence. subst x. rewrite U in X. exact X. Qed.
Lemma normal_entry a S q e : Que a S -> In q (heap S) -> event_at (qev q) S = Some e -> urgent (erole e) = false -> qprio q = NORMAL.
Proof. intros Q Hq He U. destruct (q_heap _ _ Q q Hq) as (_ & _ & x & Hx & _ & X). assert (x = e) by congruence. subst x. rewrite U in X. exact X. Qed.
Lemma calm_init a S i r : Que a S -> calm S -> proc_at i S = Some r -> a <> Some i -> match pcode r with KProc0 | KExtra0 _ | KLocal0 _ _ _ => False | _ => True end.
Proof.
  intros Q C Hr Na. destruct (pcode r) as [| | | | | | | |b n g| | | | | |] eqn:Ec; auto;
    (destruct (q_wait _ _ Q i r Hr Na) as (e & He & _ & A); [congruence|]; rewrite Ec in A; destruct A as (Ro & q & Hq & Eq); apply (C q Hq);
     refine (proj1 (urgent_entry a S q e Q Hq _ _)); [congruence|rewrite Ro; reflexivity]).
Qed.
Lemma calm_NoBaby a S : Que a S -> calm S -> (forall i r n g, a = Some i -> proc_at i S = Some r -> pcode r <> KLocal0 false n g) -> NoBaby S.
Proof.
  intros Q C H i r n g Hr Ec. pose proof (calm_init a S i r Q C Hr) as X. rewrite Ec in X.
  destruct a as [j|]; [|apply X; discriminate]. destruct (Nat.eqb_spec j i) as [->|N]; [exact (H i r n g eq_refl Hr Ec)|apply X; congruence].
Qed.
Lemma calm_NoHits a S : Que a S -> calm S -> NoHits S.
Proof. intros Q C q p Hq (e & He & Ro). apply (C q Hq). refine (proj1 (urgent_entry a S q e Q Hq He _)). rewrite Ro. reflexivity. Qed.

Lemma room_ready L S q k : room L S q (1 + k) -> qtime q = now S -> ready L k.
Proof. intros H E. destruct L as [[c [qm|]]|]; [| |exact I]; cbn [room ready] in *; specialize (H E); lia. Qed.
Lemma room_ready' L S q k : room L S q k -> qprio q = URGENT -> qtime q = now S -> ready L k.
Proof. intros H U E. destruct L as [[c [qm|]]|]; [| |exact I]; cbn [room ready] in *; specialize (H E); [|exact H]. rewrite U in H. unfold NORMAL, URGENT in H. lia. Qed.

Lemma Post_todo O d l S : Post O d S -> Post O d (set_todo l S).
Proof. intros H. exact H. Qed.
Lemma Kind_todo a ex d l S : Kind a ex d S -> Kind a ex d (set_todo l S).
Proof. apply Kind_same; auto; intros ev e He; exists e; auto. Qed.

Section Model.
Variables (O : oracle) (tie : string -> string -> bool) (t : Z) (s : st).
Hypothesis CO : compiles_with O tie.
Hypothesis H1 : one_request s.
Hypothesis H2 : plain_names s.
Hypothesis V : svars s = nobind.
Hypothesis Es : sprocs s = [].
Hypothesis Nd : NoDup (dkeys (snames s)).
Hypothesis SE : slow_eyes O.
Local Notation Turn := (Turn O t s).
Local Notation Fin := (Fin O).
Local Notation Quiet := (Quiet O).
Local Notation Reach := (Reach O t s).

Section Pop.
Variables (S : sim) (d : stage) (q : qent) (h : list qent) (e : evt).
Hypothesis R : Reach S.
Hypothesis K : SafeFacts.Ok S.
Hypothesis Et : todo S = [].
Hypothesis HI : Inv S.
Hypothesis Q : Que None S.
Hypothesis Se : Sem (fun n => None <> Some 0 /\ called S n) None S.
Hypothesis G : Gen (lim d) None S.
Hypothesis P : Post O d S.
Hypothesis Kd : Kind None None d S.
Hypothesis Hpop : pop_min (heap S) = Some (q, h).
Hypothesis He : event_at (qev q) S = Some e.
Let S' := popped q h e S.

Lemma pop_in : In q (heap S). Proof. apply (in_popped S q h e Hpop). auto. Qed.
Lemma pop_step : sim_step O S = Some S'.
Proof.
  unfold sim_step. rewrite (o_dead _ K), Et, Hpop. cbv zeta. change (event_at (qev q) (set_now (qtime q) (set_queue (eid S) h S))) with (event_at (qev q) S). rewrite He.
  unfold exec_, set_event, upd_. cbn [fst evs set_now set_queue]. change (nth_error (evs S) (qev q)) with (event_at (qev q) S). rewrite He. reflexivity.
Qed.
Lemma pop_gen : Gen (lim d) (resumed e) S'.
Proof. apply Gen_popped; auto. exact (Post_time S q h e Q Hpop O d P). Qed.
Lemma act_resumed n p r : dget (acts S) n = Some (qev q) -> proc_at p S = Some r -> pcode r = KExtraAct n -> ecbs e = Some [CResume p].
Proof.
  intros Hn Hr Hc. destruct (q_wait _ _ Q p r Hr) as (y & Hy & C & A); [discriminate|congruence|]. rewrite Hc in A. cbn [aims] in A. assert (E : ptarget r = qev q) by congruence. rewrite E in Hy. congruence.
Qed.
Lemma null_quiet : resumed e = None -> (forall n p r, erole e = RInt p -> ecbs e <> None -> proc_at p S = Some r -> ~ busy n (pcode r)) -> Quiet S'.
Proof.
  intros Re Nh. exists d. pose proof pop_gen as G'. rewrite Re in G'. split; [exact G'|]. split.
  - apply (Post_popped S q h e Q Hpop He O d P); [congruence|]. intros p r _ _. congruence.
  - apply (Kind_popped S q h e Q Hpop He None None d Kd); [|auto]. intros n p r Hn Hr [(A & B & C)|(A & B)]; exfalso; [exact (Nh n p r A B Hr C)|].
    unfold resumed in Re. rewrite (act_resumed n p r A Hr B) in Re. discriminate.
Qed.
Lemma pop_null : ecbs e = None \/ ecbs e = Some [] -> Fin S'.
Proof.
  intros C. apply (Fin_quiet O tie t s CO H1 H2 V Es Nd S' (qev q)).
  - exact (reach_step O t s S S' R pop_step).
  - unfold S', popped. destruct C as [-> | ->]; reflexivity.
  - apply null_quiet; [unfold resumed; destruct C as [-> | ->]; reflexivity|]. intros n p r Ro Nc _. destruct (i_role _ HI _ _ p He Ro) as [[X|X] _]; destruct C; congruence.
Qed.

(** ** A process is resumed *)

Section Resume.
Variables (p : nat) (r : prc) (v : val).
Hypothesis Ce : ecbs e = Some [CResume p].
Hypothesis Hr : proc_at p S = Some r.
Hypothesis Live : pcode r <> KEnd.
Hypothesis Tr : ptarget r = qev q.
Hypothesis Ve : evalue e = Some (Good v).
Let S2 := set_todo [WRun p (Good v); WEnd (qev q)] S'.
Hypothesis T : Turn p (Good v) (qev q) r S2.

Let Re : resumed e = Some p. Proof. unfold resumed. rewrite Ce. reflexivity. Qed.
Lemma res_gen : Gen (lim d) (Some p) S2.
Proof. apply Gen_todo. rewrite <- Re. exact pop_gen. Qed.
Lemma res_aims : aims S p (pcode r) (qev q) e.
Proof. destruct (q_wait _ _ Q p r Hr) as (y & Hy & _ & A); [discriminate|exact Live|]. rewrite Tr in *. assert (y = e) by congruence. subst y. exact A. Qed.
Lemma res_que : Que (Some p) S'.
Proof. rewrite <- Re. exact (Que_popped S q h e Q Hpop He). Qed.
Lemma res_hits : NoHits S -> NoHits S2.
Proof. intros H. exact (pop_NoHits S q h e Hpop He H). Qed.
Lemma res_fires : Fires None S -> Fires (Some p) S2.
Proof.
  intros F. assert (X : Kind None None SFire S) by exact F. change (Kind (Some p) None SFire S2). apply Kind_todo. apply (Kind_popped S q h e Q Hpop He (Some p) None SFire X); [|right; congruence].
  intros n i x Hn Hx [(A & _ & B)|(A & B)]; exfalso; [exact (f_hits _ _ F q i pop_in (ex_intro _ e (conj He A)))|exact (f_acts _ _ F n (qev q) q A pop_in eq_refl)].
Qed.
Lemma first x : In x (heap S) -> qtime x = now S -> before q x /\ qtime q = now S.
Proof.
  intros Hx Ex. pose proof (popped_first S q h Hpop x Hx) as B. split; [exact B|]. destruct (q_heap _ _ Q q pop_in) as (_ & X & _). unfold before in B. lia.
Qed.
(** Something urgent would have come first. *)
Lemma no_urgent i x y : urgent (erole e) = false -> proc_at i S = Some x -> (match pcode x with KProc0 | KLocal0 _ _ _ => True | _ => False end) -> at_hand x S y -> False.
Proof.
  intros U Hx Kx (A & B & C). destruct (q_wait _ _ Q i x Hx) as (y' & Hy & _ & Ai); [discriminate|destruct (pcode x); contradiction || discriminate|]. destruct (first y A C) as [D E].
  assert (Ro : urgent (erole y') = true) by (destruct (pcode x); try contradiction; destruct Ai as [-> _]; reflexivity). rewrite <- B in Hy.
  destruct (urgent_entry None S y y' Q A Hy Ro) as [X _]. pose proof (normal_entry None S q e Q pop_in He U) as Y. unfold before, URGENT, NORMAL in *. lia.
Qed.
(** The entry that ends the limit has been taken. *)
Lemma limit_met c : urgent (erole e) = false -> calm S' -> Gen (Some (c, Some q)) (Some p) S2 -> (forall n g, pcode r <> KLocal0 false n g) -> Gen (Some (c, None)) (Some p) S2.
Proof.
  intros U C X Nb. apply (Gen_limit (Some (c, Some q)) _ (Some p) S2); auto.
  - exact (reach_inv O t s S2 (t_reach _ _ _ _ _ _ _ _ T)).
  - apply (Que_same (Some p) S'); auto. exact res_que.
  - intros x w Hx Nx _ Rm Ex. specialize (Rm Ex). destruct Rm as [Rm|(-> & _ & L)]; [exact Rm|exfalso]. assert (Hx' : In x (heap S)) by exact (pop_sub S q h e Hpop x Hx). pose proof (popped_first S q h Hpop x Hx') as B.
    pose proof (normal_entry None S q e Q pop_in He U) as Y. change (now S2) with (qtime q) in Ex. unfold before in B. lia.
  - left. apply (calm_NoBaby (Some p) S' res_que C). intros i x n g [= <-] Hx. assert (x = r) by (change (proc_at p S = Some x) in Hx; congruence). subst x. apply Nb.
Qed.

Lemma res_main : mcode (pcode r) -> Fin S2.
Proof.
  intros Mc. assert (Hp0 : p = 0) by (pose proof (q_who _ _ Q p r Hr) as W; destruct (pcode r); try contradiction; exact W). assert (P' := P). destruct P' as (r0 & P0 & X).
  assert (Hr0 : proc_at 0 S = Some r) by congruence. assert (r0 = r) by congruence. subst r0. pose proof res_gen as G2. pose proof res_aims as Ai. pose proof (Kd) as Kd'.
  assert (T0 : Turn 0 (Good v) (qev q) r S2) by (subst p; exact T).
  assert (G0 : Gen (lim d) (Some 0) S2) by (subst p; exact G2).
  destruct (pcode r) as [|f| |k| | | | | | | | | | |] eqn:Ec; try contradiction.
  - destruct d as [| |k' qm| |qm| | | |]; try (destruct X as [X _]; discriminate); try (destruct X as (f' & p' & r' & X & _); discriminate). destruct X as (_ & Nb & _). destruct Kd' as [K1 K2].
    apply (main_spawn O tie t s CO H1 H2 V Es Nd (Good v) (qev q) r true S2 T0); auto; [rewrite Ec; reflexivity|exact (res_hits K1)].
  - destruct d as [| |k' qm| |qm| | | |]; try (destruct X as [X _]; discriminate); destruct X as (f' & p' & r' & X1 & X2 & X3 & X4).
    + exfalso. destruct (i_own _ HI p' r' X2) as (y & Hy & _ & Vy). rewrite X3, Tr in Hy. assert (y = e) by congruence. subst y. destruct X4 as (X4 & _). rewrite X4 in Vy. assert (evalue e = None) by (apply Vy; discriminate). congruence.
    + exfalso. destruct (i_own _ HI p' r' X2) as (y & Hy & _ & Vy). rewrite X3, Tr in Hy. assert (y = e) by congruence. subst y. destruct X4 as ((n' & e' & X4) & _). rewrite X4 in Vy. assert (evalue e = None) by (apply Vy; discriminate). congruence.
    + exfalso. destruct (i_own _ HI p' r' X2) as (y & Hy & _ & Vy). rewrite X3, Tr in Hy. assert (y = e) by congruence. subst y. destruct X4 as ((n' & e' & X4) & _). rewrite X4 in Vy. assert (evalue e = None) by (apply Vy; discriminate). congruence.
    + exfalso. destruct (i_own _ HI p' r' X2) as (y & Hy & _ & Vy). rewrite X3, Tr in Hy. assert (y = e) by congruence. subst y. destruct X4 as (n' & e' & g' & X4 & _). rewrite X4 in Vy. assert (evalue e = None) by (apply Vy; discriminate). congruence.
    + destruct X4 as (_ & Id & _). destruct Kd' as [K1 K2]. apply (main_rest O tie t s CO H1 H2 V Es Nd (Good v) (qev q) r f S2 T0); auto; [exact (pop_Idle S q h e He Id)|exact (res_hits K1)].
    + apply (main_over O tie t s CO H1 H2 V Es Nd (Good v) (qev q) r f S2 T0); auto. pose proof (res_fires Kd') as F. rewrite Hp0 in F. exact F.
  - destruct d as [| |k' qm| |qm| | | |]; try (destruct X as [X _]; discriminate); try (destruct X as (f' & p' & r' & X & _); discriminate). destruct Kd' as [K1 K2].
    apply (main_act O tie t s CO H1 H2 V Es Nd (Good v) (qev q) r S2 T0); auto.
  - destruct d as [| |k' qm| |qm| | | |]; try (destruct X as [X _]; discriminate); try (destruct X as (f' & p' & r' & X & _); discriminate). destruct X as (X1 & X2 & X3). injection X1 as <-.
    assert (q = qm). { destruct X3 as (X3 & X4 & _). apply (uniq_one S q qm (g_uniq _ _ _ G) pop_in X3). congruence. } subst qm.
    destruct Ai as (tt0 & Ro). assert (U : urgent (erole e) = false) by (rewrite Ro; reflexivity). assert (C : calm S') by exact (popped_calm S q h e Q Hpop He U).
    assert (Nb : NoBaby S2) by (apply (calm_NoBaby (Some p) S' res_que C); intros i x n g [= <-] Hx; change (proc_at p S = Some x) in Hx; congruence).
    assert (Nh : NoHits S2) by exact (calm_NoHits (Some p) S' res_que C).
    assert (G3 : Gen (Some (k + 2, None)) (Some 0) S2) by (pose proof (limit_met (k + 2) U C G2 ltac:(congruence)) as Y; rewrite Hp0 in Y; exact Y).
    assert (Hs : sprocs (ss S2) = []).
    { change (sprocs (ss S) = []). cbn [Kind] in Kd'. destruct (Nat.eqb k 4); [|exact (proj2 Kd')]. destruct (sprocs (ss S)) as [|x l] eqn:El; [reflexivity|exfalso].
      destruct (b_all _ _ _ Kd' x) as (id & n & m & i & c & bs & t0 & _ & _ & _ & [D|(i0 & x0 & Y1 & Y2 & Y3)]); [rewrite El; left; reflexivity|discriminate|].
      assert (Tq : qtime q = now S) by apply X3. pose proof (normal_entry None S q e Q pop_in He U) as Nq.
      destruct Y3 as [(_ & z & Z1 & y & Z2 & Z3 & _)|(_ & ev & qa & Z1 & Z2 & Z3 & Z4)].
      - destruct (urgent_entry None S z y Q Z1 Z2) as [U1 U2]; [rewrite Z3; reflexivity|]. destruct (first z Z1 U2) as [B _]. unfold before, URGENT, NORMAL in *. lia.
      - destruct (q_acts _ _ Q n ev Z1) as (y & Hy & Ry). rewrite <- Z3 in Hy. pose proof (normal_entry None S qa y Q Z2 Hy) as Na. rewrite Ry in Na. specialize (Na eq_refl).
        assert (Ta : qtime qa = now S) by (apply (g_fresh _ _ _ G qa y Z2 Hy); congruence). destruct (first qa Z2 Ta) as [B _]. unfold before in B. lia. }
    destruct k as [|k].
    + apply (main_spawn O tie t s CO H1 H2 V Es Nd (Good v) (qev q) r false S2 T0); auto. rewrite Ec. reflexivity.
    + apply (main_count O tie t s CO H1 H2 V Es Nd k (Good v) (qev q) r S2 T0); auto.
Qed.

Lemma res_chief : chief (pcode r) -> Fin S2.
Proof.
  intros Ch. assert (Ex : exists r0 f, proc_at 0 S = Some r0 /\ pcode r0 = KProcPro f /\ ptarget r0 = pown r).
  { pose proof (s_loc _ _ _ Se p r Hr) as X. destruct (pcode r) as [| | | | | | | |[|] n g|[|] n e0 g| | | | |]; try contradiction; (destruct X as [X|X]; [discriminate|exact X]). }
  destruct Ex as (r0 & f & A1 & A2 & A3). assert (P' := P). destruct P' as (r1 & P0 & X). assert (r1 = r0) by congruence. subst r1.
  assert (Same : forall p' r', proc_at p' S = Some r' -> pown r' = ptarget r0 -> p' = p /\ r' = r).
  { intros p' r' B1 B2. destruct (i_own _ HI p r Hr) as (y & Hy & Ry & _). destruct (i_own _ HI p' r' B1) as (y' & Hy' & Ry' & _). rewrite B2, A3 in Hy'. assert (y' = y) by congruence. subst y'. assert (p' = p) by congruence. subst p'. split; congruence. }
  assert (Kd' := Kd). pose proof res_gen as G2. pose proof res_aims as Ai. pose proof (Post_time S q h e Q Hpop O d P) as Tm.
  destruct d as [| |k' qm| |qm| | | |]; try (destruct X as [X _]; congruence); destruct X as (f' & p' & r' & X1 & X2 & X3 & X4); destruct (Same p' r' X2 X3) as [-> ->].
  - destruct X4 as (X4 & Nb & _). destruct Kd' as [K1 K2]. apply (chief_new O tie t s CO H1 H2 V Es Nd p (Good v) (qev q) r r0 f S2 T A1 A2); auto.
    + change (now S2) with (qtime q). rewrite Tm by discriminate. exact X4.
    + exact (res_hits K1).
  - destruct X4 as ((n & e0 & X4) & X5 & X6). destruct Kd' as [K1 K2]. assert (q = qm). { destruct X5 as (X5 & X7 & _). apply (uniq_one S q qm (g_uniq _ _ _ G) pop_in X5). congruence. } subst qm.
    rewrite X4 in Ai. destruct Ai as (tt0 & Ro). assert (U : urgent (erole e) = false) by (rewrite Ro; reflexivity). assert (C : calm S') by exact (popped_calm S q h e Q Hpop He U).
    assert (Nb : NoBaby S2) by (apply (calm_NoBaby (Some p) S' res_que C); intros i x m g [= <-] Hx; change (proc_at p S = Some x) in Hx; congruence).
    assert (Nh : NoHits S2) by exact (calm_NoHits (Some p) S' res_que C).
    assert (G3 : Gen (Some (1, None)) (Some p) S2) by (apply limit_met; auto; congruence).
    apply (chief_conf O tie t s CO H1 H2 V Es Nd p (Good v) (qev q) r r0 f n e0 S2 T A1 A2); auto.
    + change (now S2) with (qtime q). rewrite Tm by discriminate. exact X4.
    + intros i x m pro y g Hx Hc Hy Vy. assert (Ni : i <> p) by (intros ->; change (proc_at p S = Some x) in Hx; congruence). assert (Nx : pcode x <> KEnd) by congruence.
      destruct (q_wait _ _ res_que i x Hx ltac:(congruence) Nx) as (y' & Hy' & Cy & Ay). change (event_at (ptarget x) S' = Some y) in Hy. assert (y' = y) by congruence. subst y'. rewrite Hc in Ay. destruct Ay as (pr & Ry).
      destruct (g_full _ _ _ G3 (ptarget x) y Hy) as (z & Z1 & Z2); [congruence|congruence|]. pose proof (g_load _ _ _ G3 i x Hx ltac:(congruence)) as L. unfold Load in L. rewrite Hc in L. destruct L as [_ L]. destruct (L z Z1 Z2) as [L1 _].
      assert (Tz : qtime z = now S2) by (apply (g_fresh _ _ _ G3 z y Z1); [rewrite Z2; exact Hy|congruence]). specialize (L1 Tz). lia.
    + intros i x m Hx Hc. assert (Ni : i <> p) by (intros ->; change (proc_at p S = Some x) in Hx; congruence). pose proof (calm_init (Some p) S' i x res_que C Hx ltac:(congruence)) as D. rewrite Hc in D. exact D.
  - destruct X4 as ((n & e0 & X4) & X5 & _). destruct Kd' as [K1 K2]. apply (chief_none O tie t s CO H1 H2 V Es Nd p (Good v) (qev q) r r0 f n e0 S2 T A1 A2); auto; [exact (pop_Idle S q h e He X5)|exact (res_hits K1)].
  - destruct X4 as (n & e0 & g & X4 & X5 & X6). apply (chief_fire O tie t s CO H1 H2 V Es Nd p (Good v) (qev q) r r0 f n e0 g S2 T A1 A2); auto. exact (res_fires Kd').
  - destruct X4 as (X4 & _). contradiction.
  - contradiction.
Qed.

Let Np : ~ mcode (pcode r) -> resumed e <> Some 0.
Proof. rewrite Re. intros N [= ->]. destruct (s_main _ _ _ Se) as (r0 & A & B). assert (r0 = r) by congruence. subst r0. contradiction. Qed.
Lemma res_post : ~ mcode (pcode r) -> ~ chief (pcode r) -> Post O d S2.
Proof.
  intros Nm Nc. apply Post_todo. apply (Post_popped S q h e Q Hpop He O d P (Np Nm)). intros i x Hx Cx. rewrite Re. intros [= <-]. assert (x = r) by congruence. subst x. contradiction.
Qed.
Lemma res_kind ex : (forall n, pcode r = KExtraAct n -> ex = Some n) -> Kind (Some p) ex d S2.
Proof.
  intros Hx. apply Kind_todo. apply (Kind_popped S q h e Q Hpop He (Some p) ex d Kd); [|right; congruence]. intros n i x Hn Hi [(A & _ & _)|(A & B)].
  - destruct (i_role _ HI _ _ i He A) as [[D|D] _]; congruence.
  - apply Hx. pose proof (act_resumed n i x A Hi B) as D. rewrite Ce in D. injection D as <-. congruence.
Qed.
Lemma fires_working : working d -> Fires None S.
Proof. assert (X := Kd). destruct d; intros [D|D]; try discriminate; exact X. Qed.

Lemma res_extra n : xcode n (pcode r) -> Fin S2.
Proof.
  intros Xc. assert (Nm : ~ mcode (pcode r)) by (destruct (pcode r); cbn in *; tauto). assert (Nc : ~ chief (pcode r)) by (destruct (pcode r); cbn in *; tauto).
  set (ex := match pcode r with KExtraAct m => Some m | _ => None end).
  assert (Hn : dget (extras S) n = Some p) by (pose proof (q_who _ _ Q p r Hr) as W; destruct (pcode r); try contradiction; cbn in W, Xc; subst; exact W).
  apply (extra_turn O tie t s CO H1 H2 V Es Nd SE d ex p (Good v) (qev q) r n S2 T Xc res_gen (res_post Nm Nc)).
  - apply res_kind. intros m E. unfold ex. rewrite E. reflexivity.
  - intros m E. unfold ex in E. destruct (pcode r); try discriminate. injection E as <-. cbn in Xc. subst. exact Hn.
  - intros W Bu. exact (f_busy _ _ (fires_working W) p r n Hr ltac:(discriminate) Bu).
  - intros W E. pose proof res_aims as Ai. rewrite E in Ai. exact (f_acts _ _ (fires_working W) n (qev q) q Ai pop_in eq_refl).
  - intros pro g E [= Ev]. pose proof res_aims as Ai. rewrite E in Ai. destruct Ai as (pr & Ro). assert (U : urgent (erole e) = false) by (rewrite Ro; reflexivity).
    assert (Tq : qtime q = now S) by (apply (g_fresh _ _ _ G q e pop_in He); congruence). pose proof (g_load _ _ _ G p r Hr ltac:(discriminate)) as L. unfold Load in L. rewrite E in L. destruct L as [L1 L2].
    destruct (L2 q pop_in (eq_sym Tr)) as [L3 L4]. rewrite Tr in L4. destruct (L4 e g He) as (k & K1 & K2 & K3); [congruence|]. change (now S2) with (qtime q). rewrite Tq.
    split; [unfold ex; rewrite E; reflexivity|]. split; [|split].
    + change (dget (inter S) n <> None). intros D. destruct (L1 D) as (r1 & Z1 & Z2). pose proof (i_fits _ HI p r Hr) as F. rewrite E in F. destruct F as (r2 & F1 & _ & F3). assert (r2 = r1) by congruence. subst r2.
      destruct (i_own _ HI pro r1 Z1) as (y & Hy & _ & Vy). rewrite F3, Tr in Hy. assert (y = e) by congruence. subst y.
      destruct (pcode r1) as [| | | | | | | |[|] ? ?|[|] ? ? ?| | | | |]; try contradiction.
      * assert (evalue e = None) by (apply Vy; discriminate). congruence.
      * assert (evalue e = None) by (apply Vy; discriminate). congruence.
      * destruct Z2 as (y & Hy2 & _ & Z2). rewrite F3, Tr in Hy2. assert (y = e) by congruence. subst y. apply (Z2 g). congruence.
    + exists k. split; [exact K1|]. split; [exact K2|]. exact (room_ready _ _ _ _ K3 Tq).
    + assert (P' := P). destruct P' as (r0 & P0 & X).
      split; [|split; [|split; [|split]]].
      * intros D. rewrite D in X. destruct X as (X1 & _ & z & X2). apply (no_urgent 0 r0 z U P0); [rewrite X1; exact I|exact X2].
      * intros D. rewrite D in X. destruct X as (f & i & x & _ & X2 & _ & X4 & _ & z & X5). apply (no_urgent i x z U X2); [rewrite X4; exact I|exact X5].
      * intros D. rewrite D in L3. specialize (L3 Tq). lia.
      * intros D. rewrite D in L3. specialize (L3 Tq). lia.
      * intros D. rewrite D in X. destruct X as [_ X]. change (trig S' (pact S) = true). unfold S'. rewrite (pop_trig S q h e He). destruct (trig S (pact S)); [reflexivity|exfalso]. destruct (X eq_refl) as (_ & _ & Nk).
        apply (Nk p r n pro e g Hr E); [congruence|congruence].
  - discriminate.
Qed.

Lemma res_baby n g : pcode r = KLocal0 false n g -> Fin S2.
Proof.
  intros E. assert (Nm : ~ mcode (pcode r)) by (rewrite E; exact (fun x => x)). assert (Nc : ~ chief (pcode r)) by (rewrite E; exact (fun x => x)).
  pose proof res_aims as Ai. rewrite E in Ai. destruct Ai as (Ro & _). assert (Tq : qtime q = now S) by (apply (g_fresh _ _ _ G q e pop_in He); congruence).
  destruct (urgent_entry None S q e Q pop_in He) as [Uq _]; [rewrite Ro; reflexivity|]. pose proof (g_load _ _ _ G p r Hr ltac:(discriminate)) as L. unfold Load in L. rewrite E in L. destruct L as (k & K1 & K2 & K3).
  specialize (K3 q pop_in (eq_sym Tr)). assert (Nb : ~ NoBaby S) by (intros X; exact (X p r n g Hr E)). assert (P' := P). destruct P' as (r0 & P0 & X).
  apply (local_turn O tie t s CO H1 H2 V Es Nd d p (Good v) (qev q) r n g false k S2 T res_gen (res_post Nm Nc)).
  - apply res_kind. congruence.
  - split; [|split; [|split]]; intros D; apply Nb; rewrite D in X.
    + apply X.
    + destruct X as (f & i & x & _ & _ & _ & _ & X5 & _). exact X5.
    + destruct X as (f & i & x & _ & _ & _ & _ & X5 & _). apply X5.
    + destruct X as (f & i & x & _ & _ & _ & _ & X5 & _). apply X5.
  - left. split; [exact E|]. split; [reflexivity|]. intros D. rewrite D in X. destruct X as [_ X]. change (trig S' (pact S) = true). unfold S'. rewrite (pop_trig S q h e He). destruct (trig S (pact S)); [reflexivity|exfalso]. apply Nb. apply (X eq_refl).
  - exact K1.
  - intros _. change (now S2) with (qtime q). rewrite Tq. split; [exact (room_ready' _ _ _ _ K3 Uq Tq)|exact K2].
  - discriminate.
Qed.
Lemma res_local n e0 g : pcode r = KLocal false n e0 g -> Fin S2.
Proof.
  intros E. assert (Nm : ~ mcode (pcode r)) by (rewrite E; exact (fun x => x)). assert (Nc : ~ chief (pcode r)) by (rewrite E; exact (fun x => x)).
  pose proof res_aims as Ai. rewrite E in Ai. destruct Ai as (t0 & Ro0). assert (U : urgent (erole e) = false) by (rewrite Ro0; reflexivity).
  pose proof (i_fits _ HI p r Hr) as Fi. rewrite E in Fi. cbn [SimFacts.fits] in Fi. rewrite Tr in Fi. destruct Fi as (y & Hy & Ro). assert (y = e) by congruence. subst y.
  assert (Tq : qtime q = etime e0). { destruct (i_heap _ HI q pop_in) as (_ & y & Hy' & X). assert (y = e) by congruence. subst y. exact (X _ Ro). }
  pose proof (g_load _ _ _ G p r Hr ltac:(discriminate)) as L. unfold Load in L. rewrite E in L. destruct L as (K0 & k & K1 & K2 & K3).
  specialize (K3 q pop_in (eq_sym Tr)). pose proof (Post_time S q h e Q Hpop O d P) as Tm. assert (P' := P). destruct P' as (r0 & P0 & X).
  apply (local_turn O tie t s CO H1 H2 V Es Nd d p (Good v) (qev q) r n g (unknown e0) k S2 T res_gen (res_post Nm Nc)).
  - apply res_kind. congruence.
  - split; [|split; [|split]]; intros D.
    + rewrite D in X. destruct X as (X1 & _ & z & X2). apply (no_urgent 0 r0 z U P0); [rewrite X1; exact I|exact X2].
    + rewrite D in X. destruct X as (f & i & x & _ & X2 & _ & X4 & _ & z & X5). apply (no_urgent i x z U X2); [rewrite X4; exact I|exact X5].
    + rewrite D in K3, Tm. specialize (K3 (Tm ltac:(discriminate))). lia.
    + rewrite D in K3, Tm. specialize (K3 (Tm ltac:(discriminate))). lia.
  - right. exists e0. split; [exact E|]. split; [reflexivity|]. split; [exact K0|]. right. symmetry. exact Tq.
  - exact K1.
  - intros _. change (now S2) with (qtime q). rewrite Tq. split; [|exact K2]. destruct (lim d) as [[c m]|] eqn:El; [|exact I]. apply (room_ready _ S q k K3). apply Tm. discriminate.
  - discriminate.
Qed.
Lemma res_fin : Fin S2.
Proof.
  assert (X : forall c, pcode r = c -> who S p c -> c <> KEnd -> Fin S2); [|exact (X _ eq_refl (q_who _ _ Q p r Hr) Live)].
  intros c Ec W Lv. destruct c as [|f| |k|n|n|n pro|n pro|[|] n g|[|] n e0 g|g|pro g|e0|e0|]; try contradiction.
  1-4: apply res_main; rewrite Ec; exact I.
  1-4: apply (res_extra n); rewrite Ec; reflexivity.
  - apply res_chief. rewrite Ec. exact I.
  - exact (res_baby n g Ec).
  - apply res_chief. rewrite Ec. exact I.
  - exact (res_local n e0 g Ec).
Qed.
End Resume.
Lemma pop_resume p r : ecbs e = Some [CResume p] -> proc_at p S = Some r -> pcode r <> KEnd -> ptarget r = qev q -> Fin S'.
Proof.
  intros Ce Hr Live Tr. pose proof (reach_step O t s S S' R pop_step) as R'. destruct (reach_safe O tie t s CO H1 H2 V Es Nd S' R') as [[K' N']|B]; [|apply fin_broken; exact B].
  destruct (q_heap _ _ Q q pop_in) as (_ & _ & x & Hx & Vx & _). assert (x = e) by congruence. subst x. destruct (evalue e) as [o|] eqn:Ve; [|contradiction].
  set (e1 := MkEvt (erole e) (evalue e) (edefused e) None). set (S1 := set_todo [WEnd (qev q)] S').
  assert (He1 : event_at (qev q) S1 = Some e1) by (change (event_at (qev q) S' = Some e1); unfold S'; rewrite (at_popped S q h e He), Nat.eqb_refl; reflexivity).
  assert (Et' : todo S' = [WCb (qev q) (CResume p); WEnd (qev q)]) by (unfold S', popped; rewrite Ce; reflexivity).
  assert (Hs : sim_step O S' = Some (set_todo [WRun p o; WEnd (qev q)] (defused (qev q) e1 o S1))).
  { unfold sim_step. rewrite (o_dead _ K'), Et'. cbn [work_off]. fold S1. rewrite He1. change (evalue e1) with (evalue e). rewrite Ve, (defuse_eq (qev q) e1 o S1 He1). destruct o; reflexivity. }
  apply (fin_next O S' _ ltac:(congruence) Hs). pose proof (reach_step O t s _ _ R' Hs) as R2. destruct (reach_safe O tie t s CO H1 H2 V Es Nd _ R2) as [[K2 N2]|B]; [|apply fin_broken; exact B].
  destruct o as [v|f].
  - apply (res_fin p r v Ce Hr Live Tr Ve). constructor; auto.
  - apply fin_broken. left. split; [exact K2|]. split; [exact N2|]. right. pose proof (s_vals _ _ _ Se _ _ He) as So. unfold sound in So. rewrite Ve in So. destruct So as [(x & ->)|(_ & i & Ro)]; [eexists _, _, _; reflexivity|].
    destruct (i_role _ HI _ _ i He Ro) as [[D|D] _]; congruence.
Qed.

(** ** A process is interrupted *)

Lemma pop_int p : ecbs e = Some [CInt p] -> erole e = RInt p -> Fin S'.
Proof.
  intros Ce Ro. pose proof (reach_step O t s S S' R pop_step) as R'. destruct (reach_safe O tie t s CO H1 H2 V Es Nd S' R') as [[K' N']|B]; [|apply fin_broken; exact B].
  assert (Et' : todo S' = [WCb (qev q) (CInt p); WEnd (qev q)]) by (unfold S', popped; rewrite Ce; reflexivity).
  assert (Re : resumed e = None) by (unfold resumed; rewrite Ce; reflexivity).
  destruct (o_all _ K') as (a & Q' & _ & _ & Td). unfold Todo in Td. rewrite Et' in Td. destruct Td as (-> & r & Hr & Hc).
  pose proof (ended_iff p r S' (reach_inv O t s S' R') Hr) as En. set (S1 := set_todo [WEnd (qev q)] S').
  assert (Hs : sim_step O S' = Some (work_off O (WCb (qev q) (CInt p)) S1)) by (unfold sim_step; rewrite (o_dead _ K'), Et'; reflexivity).
  cbn [work_off] in Hs. change (ended p S1) with (ended p S') in Hs. change (nth_error (prs S1) p) with (proc_at p S') in Hs. rewrite Hr in Hs. destruct (ended p S').
  { apply (fin_next O S' S1 ltac:(congruence) Hs). apply (Fin_quiet O tie t s CO H1 H2 V Es Nd S1 (qev q) (reach_step O t s _ _ R' Hs) eq_refl). apply Quiet_todo. apply (null_quiet Re). intros n i x Ri _ Hx Bu.
    assert (i = p) by congruence. subst i. assert (x = r) by (change (proc_at p S = Some r) in Hr; congruence). subst x. rewrite (proj1 En eq_refl) in Bu. exact Bu. }
  assert (Live : pcode r <> KEnd) by (intros X; apply En in X; discriminate). destruct (q_wait _ _ Q' p r Hr) as (e2 & He2 & Ce2 & Ai); [discriminate|exact Live|].
  unfold exec_, set_event, upd_ in Hs. cbn [fst] in Hs. change (nth_error (evs S1) (ptarget r)) with (event_at (ptarget r) S') in Hs. rewrite He2, Ce2 in Hs. cbn [remove_cb cb_eqb] in Hs. rewrite Nat.eqb_refl in Hs.
  set (S2 := set_todo [WRun p (Bad TInterrupt); WEnd (qev q)] (torn (ptarget r) e2 S')). assert (Hs2 : sim_step O S' = Some S2) by exact Hs. clear Hs.
  apply (fin_next O S' S2 ltac:(congruence) Hs2). pose proof (reach_step O t s _ _ R' Hs2) as R2. destruct (reach_safe O tie t s CO H1 H2 V Es Nd _ R2) as [[K2 N2]|B]; [|apply fin_broken; exact B].
  assert (T : Turn p (Bad TInterrupt) (qev q) r S2) by (constructor; auto). change (proc_at p S = Some r) in Hr.
  assert (Hit : ~ NoHits S) by (intros X; apply (X q p pop_in); exists e; auto). assert (Dz : exists qm, d = SZero 4 qm).
  { assert (X := Kd). destruct d as [| |k qm| |qm| | | |]; cbn [Kind] in X; try (elim Hit; exact (proj1 X)); try (elim Hit; exact (f_hits _ _ X)). destruct (Nat.eqb_spec k 4) as [->|N]; [eauto|elim Hit; exact (proj1 X)]. }
  destruct (s_main _ _ _ Se) as (r0 & P0 & M0).
  assert (Ev : forall ev e', event_at ev S2 = Some e' -> exists e, event_at ev S' = Some e /\ erole e' = erole e /\ evalue e' = evalue e).
  { intros ev y Hy. change (event_at ev (torn (ptarget r) e2 S') = Some y) in Hy. unfold torn in Hy. rewrite (at_changed _ _ _ _ _ He2) in Hy. destruct (Nat.eqb_spec ev (ptarget r)) as [->|N]; [injection Hy as <-; exists e2; auto|exists y; auto]. }
  assert (Ev' : forall ev e, event_at ev S' = Some e -> exists e', event_at ev S2 = Some e' /\ (ecbs e <> None -> ecbs e' <> None)).
  { intros ev y Hy. change (event_at ev S2) with (event_at ev (torn (ptarget r) e2 S')). unfold torn. rewrite (at_changed _ _ _ _ _ He2). destruct (Nat.eqb_spec ev (ptarget r)) as [->|N]; [eexists; split; [reflexivity|]; discriminate|exists y; auto]. }
  assert (G2 : Gen (lim d) (Some p) S2). { apply Gen_todo. apply Gen_torn; auto. rewrite <- Re. exact pop_gen. }
  assert (P2 : Post O d S2).
  { apply (Post_same S'); auto. apply (Post_popped S q h e Q Hpop He O d P); [congruence|]. intros i x _ _. congruence. }
  assert (Kx : forall ex, (forall n, busy n (pcode r) -> ex = Some n) -> Kind (Some p) ex d S2).
  { intros ex Hx. apply (Kind_same S'); auto. apply Kind_pick. apply (Kind_popped S q h e Q Hpop He None ex d Kd); [|auto]. intros n i x Hn Hi [(A & _ & B)|(A & B)].
    - assert (i = p) by congruence. subst i. assert (x = r) by congruence. subst x. exact (Hx n B).
    - pose proof (act_resumed n i x A Hi B). congruence. }
  assert (Nw : ~ working d) by (destruct Dz as (qm & ->); intros [D|D]; discriminate).
  destruct Hc as [Hc|[(n & Bu & _)|(n & e0 & g & Hc)]]; [contradiction| |].
  - assert (Xc : xcode n (pcode r)) by (destruct (pcode r); try contradiction; exact Bu).
    assert (Hn : dget (extras S) n = Some p) by (pose proof (q_who _ _ Q p r Hr) as W; destruct (pcode r); try contradiction; cbn in W, Bu; subst; exact W).
    apply (extra_turn O tie t s CO H1 H2 V Es Nd SE d (Some n) p (Bad TInterrupt) (qev q) r n S2 T Xc G2 P2); auto; try contradiction; try discriminate.
    + apply Kx. intros m Bm. destruct (pcode r); try contradiction; cbn in Bu, Bm; congruence.
    + intros m [= <-]. exact Hn.
  - pose proof (g_load _ _ _ G p r Hr ltac:(discriminate)) as L. unfold Load in L. rewrite Hc in L. destruct L as (K0 & _).
    apply (local_turn O tie t s CO H1 H2 V Es Nd d p (Bad TInterrupt) (qev q) r n g (unknown e0) 0 S2 T G2 P2); auto; try lia.
    + apply Kx. intros m Bm. rewrite Hc in Bm. contradiction.
    + destruct Dz as (qm & ->). repeat split; discriminate.
    + right. exists e0. auto.
    + intros X. contradiction.
Qed.
Lemma pop_fin : Fin S'.
Proof.
  destruct (q_cbs _ _ Q _ _ He) as [[C _]|[C|[(p & r & C1 & _ & C3 & C4 & C5)|(p & C1 & C2)]]].
  - apply pop_null. auto.
  - apply pop_null. auto.
  - exact (pop_resume p r C1 C3 C4 C5).
  - exact (pop_int p C1 C2).
Qed.
End Pop.

Lemma quiet_step S S' : Reach S -> todo S = [] -> Quiet S -> sim_step O S = Some S' -> Fin S'.
Proof.
  intros R Et (d & G & P & Kd) Hs. pose proof (reach_step O t s S S' R Hs) as R'. destruct (reach_safe O tie t s CO H1 H2 V Es Nd S R) as [[K N]|B].
  - destruct (o_all _ K) as (a & Q & Se & _ & Td). unfold Todo in Td. rewrite Et in Td. subst a.
    destruct (pop_min (heap S)) as [[q h]|] eqn:Ep; [|unfold sim_step in Hs; rewrite (o_dead _ K), Et, Ep in Hs; discriminate].
    destruct (pop_min_ok _ _ _ Ep) as [Hq _]. destruct (q_heap _ _ Q q Hq) as (_ & _ & e & He & _).
    rewrite (pop_step S q h e K Et Ep He) in Hs. injection Hs as <-. exact (pop_fin S d q h e R K Et (reach_inv O t s S R) Q Se G P Kd Ep He).
  - apply fin_broken. exact (broken_step O S S' (reach_inv O t s S R) (reach_mannered O tie t s CO H1 H2 V S R) B Hs).
Qed.
End Model.
