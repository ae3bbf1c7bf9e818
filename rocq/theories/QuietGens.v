(** How long the processes of buffers keep busy at one moment, and what the process of the rules puts into procs. *)
From Coq Require Import Lia Qround Qabs Lqa.
From Verif Require Import Base BaseFacts Chunks DecMem Buffers BufferFacts Productions ProdSpec ProdFacts ActFacts HarvestFacts CycleFacts LearnFacts RoundFacts Sim SimSpec LiftFacts FrameFacts SafeSpec RequestFacts.
Local Open Scope string_scope.
Local Open Scope list_scope.
Local Open Scope nat_scope.

(** ** Processes of buffers *)

Definition unknown (e : event) : bool := match ewhat e with WUnknown => true | _ => false end.

(** At time [T] the generator is resumed at most [n] times before time goes on, counting the end of its
    process; [b]: it does not end before it has reported something. *)
Fixpoint lasts (T : Z) (n : nat) (b : bool) (g : gen) {struct g} : Prop :=
  match g with
  | GRet => 1 <= n /\ b = false
  | GRaise _ => 1 <= n
  | GYield e k =>
      (unknown e = false -> eproc e <> PROCEDURAL) /\
      match Z.compare (etime e) T with
      | Lt => 1 <= n
      | Eq => exists m, n = S m /\ lasts T m (unknown e) k
      | Gt => lasts (etime e) 5 (unknown e) k
      end
  | GCont k => b = false /\ exists m, n = S m /\ lasts T m false k
  | GNote _ k => lasts T n b k
  | GAct _ k => lasts T n b k
  | GGet k => forall s, lasts T n b (k s)
  end.
Lemma lasts_mono g : forall T n m b, lasts T n b g -> n <= m -> lasts T m b g.
Proof.
  induction g as [|e|e g IH|g IH|k g IH|f g IH|g IH]; intros T n m b H L; cbn [lasts] in *; eauto.
  - destruct H as [H ->]. split; [lia|reflexivity].
  - lia.
  - destruct H as [H1 H2]. split; [exact H1|]. destruct (Z.compare (etime e) T); auto; [|lia]. destruct H2 as (x & -> & H2). destruct m as [|m]; [lia|]. exists m. split; [reflexivity|]. apply (IH _ x); [exact H2|lia].
  - destruct H as (H1 & x & -> & H2). destruct m as [|m]; [lia|]. split; [exact H1|]. exists m. split; [reflexivity|]. apply (IH _ x); [exact H2|lia].
Qed.
Lemma lasts_call {A} (f : st -> world * res A) k T n b : 1 <= n -> (forall s w a, f s = (w, Ok a) -> lasts T n b (k a)) -> lasts T n b (gcall f k).
Proof. intros L K. cbn [gcall lasts]. intros s. destruct (f s) as [w [a|e]] eqn:E; cbn [lasts]; [eapply K; exact E|exact L]. Qed.
Lemma lasts_record f k T n b : 1 <= n -> lasts T n b k -> lasts T n b (g_record f k).
Proof. intros L K s. destruct (f s); cbn [lasts]; auto. Qed.
Lemma lasts_yield T n b e k : (unknown e = false -> eproc e <> PROCEDURAL) -> 1 <= n ->
  (etime e = T -> exists m, n = S m /\ lasts T m (unknown e) k) -> ((T < etime e)%Z -> lasts (etime e) 5 (unknown e) k) -> lasts T n b (GYield e k).
Proof. intros A L B C. cbn [lasts]. split; [exact A|]. destruct (Z.compare_spec (etime e) T); auto. Qed.
(** The event is reported now or later; [k] takes one turn less than [n], and at most 5. *)
Lemma lasts_next T m b e k : (unknown e = false -> eproc e <> PROCEDURAL) -> m <= 5 -> lasts (etime e) m (unknown e) k -> lasts T (S m) b (GYield e k).
Proof.
  intros A L K. apply lasts_yield; auto; [lia| |].
  - intros E. exists m. rewrite <- E. split; [reflexivity|exact K].
  - intros _. apply (lasts_mono _ _ m); [exact K|lia].
Qed.

Lemma lasts_act T n b f k : lasts T n b k -> lasts T n b (GAct f k). Proof. exact (fun H => H). Qed.
Lemma lasts_get T n b k : (forall s, lasts T n b (k s)) -> lasts T n b (GGet k). Proof. exact (fun H => H). Qed.
Lemma lasts_raise T n b e : 1 <= n -> lasts T n b (GRaise e). Proof. exact (fun H => H). Qed.
Lemma lasts_ret T n : 1 <= n -> lasts T n false GRet. Proof. intros H. split; [exact H|reflexivity]. Qed.
Lemma lasts_seq_call {A} (f : st -> world * res A) h k T n b : 1 <= n -> (forall s w a, f s = (w, Ok a) -> lasts T n b (gseq (h a) k)) -> lasts T n b (gseq (gcall f h) k).
Proof. intros L K s. destruct (f s) as [w [a|e]] eqn:E; cbn [gseq lasts]; [eapply K; exact E|exact L]. Qed.
Section Lasts.
Variable O : oracle.
Hypothesis SE : slow_eyes O.
Variable name : string.
Hypothesis NP : name <> PROCEDURAL.

Lemma not_procedural t w : unknown (ev t name w) = false -> eproc (ev t name w) <> PROCEDURAL.
Proof. intros _. exact NP. Qed.
Hint Resolve not_procedural : core.
Ltac yield := apply lasts_next; [apply not_procedural|lia|].

Lemma lasts_cleared i opt t k T m b : m <= 5 -> lasts (roundtime t) m false k -> lasts T (S m) b (gseq (g_clear name i opt t false) k).
Proof.
  intros L K. unfold g_clear. cbn [gseq]. apply lasts_act. apply lasts_seq_call; [lia|]. intros s w a _. cbn [gseq]. yield. exact K.
Qed.
Lemma lasts_clear i opt t fr T n b : 2 <= n -> lasts T n b (g_clear name i opt t fr).
Proof.
  intros L. unfold g_clear. apply lasts_act. apply lasts_call; [lia|]. intros s w a _. eapply lasts_mono with (n := 2); [|lia]. yield. destruct fr; [apply lasts_act|]; apply lasts_ret; lia.
Qed.
(** yield from is associative, up to the order of reading. *)
Lemma lasts_assoc g : forall h k T n b, lasts T n b (gseq g (gseq h k)) -> lasts T n b (gseq (gseq g h) k).
Proof.
  induction g as [|e|e g IH|g IH|x g IH|f g IH|g IH]; intros h k T n b H; cbn [gseq lasts] in *; auto.
  destruct H as [H1 H2]. split; [exact H1|]. destruct (Z.compare (etime e) T); auto. destruct H2 as (m & E & H2). eauto.
Qed.
Lemma lasts_encode i ch t x site k T m b : m <= 4 -> lasts (roundtime (t + x)) m false k -> lasts T (S (S m)) b (gseq (g_encode name i ch t x site) k).
Proof.
  intros L K. unfold g_encode. cbv zeta. cbn [gseq]. apply lasts_act. apply lasts_act. apply lasts_assoc. apply lasts_cleared; [lia|]. apply lasts_seq_call; [lia|]. intros s w a _. cbn [gseq]. apply lasts_act. yield. exact K.
Qed.
Lemma lasts_modreq i c bs t T b : lasts T 3 b (g_modreq name i c bs t).
Proof.
  unfold g_modreq. apply lasts_act. apply lasts_get. intros s. cbv zeta. yield. apply lasts_record; [lia|]. apply lasts_call; [lia|]. intros s2 w a _. apply lasts_act. yield. apply lasts_ret. lia.
Qed.
Lemma lasts_setgoal i c bs t T b : lasts T 4 b (g_setgoal name i c bs t).
Proof.
  unfold g_setgoal. apply lasts_cleared; [lia|]. apply lasts_get. intros s. cbv zeta. yield. apply lasts_record; [lia|]. apply lasts_call; [lia|]. intros s2 w a _. apply lasts_act. yield. apply lasts_ret. lia.
Qed.
Lemma lasts_retrieve i c bs t T b : lasts T 5 b (g_retrieve O name i c bs t).
Proof.
  unfold g_retrieve. yield. apply lasts_call; [lia|]. intros s w out _. cbv zeta. yield.
  assert (K : forall T, lasts T 2 true (g_record (record_retrieve name c (fst out)) (GYield (ev (t + snd out) name (WText "RETRIEVED")) GRet))) by (intros T'; apply lasts_record; [lia|]; yield; apply lasts_ret; lia).
  assert (K' : forall T, lasts T 2 false (g_record (record_retrieve name c (fst out)) (GYield (ev (t + snd out) name (WText "RETRIEVED")) GRet))) by (intros T'; apply lasts_record; [lia|]; yield; apply lasts_ret; lia).
  destruct (fst out) as [ch|]; [destruct (truthy (VChunk ch))|]; cbn [gseq].
  - yield. apply lasts_seq_call; [lia|]. intros s2 w2 a2 _. cbn [gseq]. apply lasts_act. apply K'.
  - apply lasts_act. apply (lasts_mono _ _ 2); [apply K|lia].
  - apply lasts_act. apply (lasts_mono _ _ 2); [apply K|lia].
Qed.
Lemma lasts_find i c bs t T b : lasts T 4 b (g_find O name i c bs t).
Proof.
  unfold g_find. yield. apply lasts_call; [lia|]. intros s w r _.
  assert (K : forall T b, lasts T 2 b (GYield (ev t name (WText "ENCODED LOCATION")) GRet)) by (intros T' b'; yield; apply lasts_ret; lia).
  destruct r as [[ch stim]|]; [destruct (truthy (VChunk ch))|].
  - apply lasts_assoc. apply lasts_cleared; [lia|]. apply lasts_seq_call; [lia|]. intros s2 w2 a2 _. cbn [gseq]. apply lasts_act. apply K.
  - cbn [gseq]. apply lasts_act. apply (lasts_mono _ _ 2); [apply K|lia].
  - cbn [gseq]. apply lasts_act. apply (lasts_mono _ _ 2); [apply K|lia].
Qed.
Lemma later x d : (2 # 10000 <= d)%Q -> (roundtime x < roundtime (x + d))%Z.
Proof.
  intros H. pose proof (roundtime_close x) as A. pose proof (roundtime_close (x + d)) as B. apply Qabs_Qle_condition in A, B. destruct A as [A1 A2], B as [B1 B2].
  unfold seconds in *. assert (L : (inject_Z (roundtime x) < inject_Z (roundtime (x + d)))%Q); [|rewrite <- Zlt_Qlt in L; exact L].
  assert (Z : forall z, (inject_Z z == (z # 10000) * 10000)%Q) by (intros z; unfold Qeq, inject_Z; cbn; lia). rewrite (Z (roundtime x)), (Z (roundtime (x + d))). lra.
Qed.
Lemma lasts_encode_later i ch t x site k T n b : 1 <= n -> (T < roundtime (t + x))%Z -> lasts (roundtime (t + x)) 4 false k -> lasts T n b (gseq (g_encode name i ch t x site) k).
Proof.
  intros L Lt K. unfold g_encode. cbv zeta. cbn [gseq]. apply lasts_act. apply lasts_act. apply lasts_assoc. unfold g_clear. cbn [gseq]. apply lasts_act. apply lasts_seq_call; [lia|]. intros s w a _. cbn [gseq].
  apply lasts_yield; [apply not_procedural|lia|cbn [ev etime]; lia|]. intros _. apply lasts_seq_call; [lia|]. intros s2 w2 a2 _. cbn [gseq]. apply lasts_act. yield. exact K.
Qed.
Lemma lasts_viscont i ch bs t enc prep exe site T n : (2 # 10000 <= exe)%Q ->
  (3 <= n /\ Qle_bool enc (prep + exe) = true) \/ (T <= roundtime t)%Z -> lasts T n false (g_viscont O name i ch bs t (enc, prep, exe) site).
Proof.
  intros He H. unfold g_viscont. apply lasts_act. apply lasts_get. intros s. cbv zeta. set (t0 := if Qle_bool (mvt_of s i) t then t else mvt_of s i).
  assert (L0 : (t <= t0)%Q).
  { unfold t0. destruct (Qle_bool (mvt_of s i) t) eqn:E; [apply Qle_refl|]. destruct (Qlt_le_dec (mvt_of s i) t) as [C|C]; [|exact C]. apply Qlt_le_weak, Qle_bool_iff in C. congruence. }
  assert (L : (roundtime t < roundtime (t0 + exe))%Z) by (pose proof (later t0 exe He); pose proof (roundtime_mono _ _ L0); lia).
  apply lasts_act.
  set (fin := GAct (set_attrs i [("processor", "free"); ("execution", "free"); ("state", "free")]) (GAct (set_attend i true) GRet)).
  assert (End : forall T k, 1 <= k -> lasts T k false fin) by (intros T' k Hk; apply lasts_act, lasts_act, lasts_ret; exact Hk).
  set (enc_g := if Qle_bool enc (prep + exe) then GRet else _).
  assert (Rest : forall T m, 3 <= m -> lasts T m false (gseq enc_g fin)).
  { intros T' m Hm. unfold enc_g. destruct (Qle_bool enc (prep + exe)); [apply End; lia|]. apply lasts_seq_call; [lia|]. intros s2 w [[ch2 [[enc2 p2] x2]] site2] _. apply (lasts_mono _ _ 3); [|lia]. apply lasts_encode; [lia|]. apply End. lia. }
  assert (Mid : forall T n, 2 <= n -> Qle_bool enc (prep + exe) = true -> lasts T n true (GAct (set_focus i (py_int (fst site), py_int (snd site))) (GYield (ev (t0 + exe) name (WText "SHIFT COMPLETE")) (gseq enc_g fin)))).
  { intros T' m Hm H2. apply lasts_act. apply (lasts_mono _ _ 2); [|lia]. yield. unfold enc_g. rewrite H2. apply End. lia. }
  assert (K : lasts (roundtime (t0 + exe)) 5 true (GAct (set_focus i (py_int (fst site), py_int (snd site))) (GYield (ev (t0 + exe) name (WText "SHIFT COMPLETE")) (gseq enc_g fin)))).
  { apply lasts_act. yield. apply Rest. lia. }
  destruct H as [[H1 H2]|H].
  - apply lasts_yield; [apply not_procedural|lia| |].
    + intros _. destruct n as [|n]; [lia|]. exists n. split; [reflexivity|]. apply Mid; [lia|exact H2].
    + intros _. exact K.
  - assert (Gt : (etime (ev (t0 + exe) name WUnknown) ?= T = Gt)%Z) by (cbn [ev etime]; apply Z.compare_gt_iff; lia).
    revert K. generalize (GAct (set_focus i (py_int (fst site), py_int (snd site))) (GYield (ev (t0 + exe) name (WText "SHIFT COMPLETE")) (gseq enc_g fin))). intros k K.
    cbn [lasts]. split; [discriminate|]. rewrite Gt. exact K.
Qed.
Lemma lasts_contin T n k : lasts T n false k -> lasts T (S n) false (GCont k).
Proof. intros K. cbn [lasts]. split; [reflexivity|]. exists n. split; [reflexivity|exact K]. Qed.
Lemma lasts_shift i c bs t T b : lasts T 5 b (g_shift O name i c bs t).
Proof.
  unfold g_shift. apply lasts_call; [lia|]. intros s w [[ch [[enc prep] exe]] site] E. pose proof (SE _ _ _ _ _ _ _ _ _ _ E) as He. apply lasts_act.
  destruct (Qle_bool enc prep) eqn:E1; cbn [negb andb].
  - yield. apply (lasts_encode _ _ _ _ _ _ _ 2); [lia|]. yield. cbn [gseq]. apply lasts_contin. apply lasts_viscont; [exact He|]. right. cbn [ev etime]. lia.
  - yield. cbn [gseq].
    destruct (Qle_bool enc (prep + exe)) eqn:E2; cbn [gseq].
    + apply lasts_next; [apply not_procedural|lia|]. cbn [ev etime]. set (t' := (t + prep)%Q).
      destruct (Z_lt_le_dec (roundtime t') (roundtime (t' - prep + enc))) as [C|C].
      * apply lasts_encode_later; [lia|exact C|]. apply lasts_contin. apply lasts_viscont; [exact He|]. left. split; [lia|exact E2].
      * apply lasts_encode; [lia|]. apply lasts_contin. apply lasts_viscont; [exact He|]. right. exact C.
    + apply (lasts_mono _ _ 2); [|lia]. yield. apply lasts_contin. apply lasts_viscont; [exact He|]. right. cbn [ev etime]. lia.
Qed.
Lemma lasts_visual i c bs t T : lasts T 5 false (g_visual O name i c bs t).
Proof.
  unfold g_visual. destruct c; try (apply lasts_raise; lia). destruct (resolve_slots bs true _) as [args|]; [|apply lasts_raise; lia].
  repeat match goal with |- lasts _ _ _ (match ?x with _ => _ end) => destruct x end; try (apply lasts_raise; lia); try (apply lasts_ret; lia); try apply lasts_shift.
  all: apply lasts_act, lasts_act; apply (lasts_mono _ _ 2); [|lia]; yield; apply lasts_ret; lia.
Qed.
Lemma press_quick k : (2 # 10000 <= pexec (press_times k))%Q /\ (2 # 10000 <= pfinish (press_times k))%Q.
Proof. unfold press_times. repeat match goal with |- context[match ?x with _ => _ end] => destruct x end; split; cbn; discriminate. Qed.
Lemma lasts_motorcont i k t T : lasts T 2 false (g_motorcont name i k t (press_times k)).
Proof.
  destruct (press_quick k) as [P1 P2]. unfold g_motorcont. apply lasts_get. intros s. cbv zeta. apply lasts_act, lasts_act. yield. apply lasts_act.
  match goal with |- lasts _ _ _ (GYield (ev ?x name WUnknown) ?h) => set (t2 := x); set (h0 := h) end.
  assert (K : lasts (roundtime t2) 5 true h0).
  { unfold h0. apply lasts_act. yield. apply (lasts_mono _ _ 2); [|lia]. yield. apply lasts_act, lasts_act, lasts_ret. lia. }
  apply lasts_yield; [apply not_procedural|lia| |intros _; exact K].
  cbn [ev etime]. intros E. exfalso. unfold t2 in E. match type of E with roundtime (?x + _) = _ => pose proof (later x _ P1) end. lia.
Qed.
Lemma lasts_motor i c bs t T b : lasts T 5 b (g_motor name i c bs t).
Proof.
  unfold g_motor. destruct c; try (apply lasts_raise; lia). apply lasts_call; [lia|]. intros s w k _. apply lasts_get. intros s2. cbv zeta. apply lasts_act, lasts_act. yield. yield. apply lasts_contin. apply lasts_motorcont.
Qed.
Lemma lasts_request i c bs t T : lasts T 5 false (g_request O name i c bs t).
Proof.
  unfold g_request. apply lasts_act, lasts_get. intros s. destruct (nth_error _ _) as [b|]; [|apply lasts_raise; lia]. destruct (bkind b); first [apply lasts_retrieve|apply lasts_visual|apply lasts_motor|apply (lasts_mono _ _ 4); [first [apply lasts_setgoal|apply lasts_find]|lia]].
Qed.
(** The methods that rules put into procs. *)
Definition queues (m : meth) : bool := match m with MRetrieve | MModReq | MClear => true | _ => false end.
Lemma lasts_proc id m i c bs t T : queues m = true -> lasts T 5 false (proc_gen O (PReq id name m i c bs t)).
Proof.
  cbn [proc_gen]. destruct m; intros Q; try discriminate; cbn [start].
  - apply lasts_request.
  - apply lasts_clear. lia.
  - apply (lasts_mono _ _ 3); [apply lasts_modreq|lia].
Qed.
End Lasts.

(** Processes that end at time [T]. *)
Fixpoint instant (T : Z) (g : gen) : Prop :=
  match g with
  | GRet => True
  | GRaise _ => True
  | GYield e k => (etime e <= T)%Z /\ instant T k
  | GCont _ => False
  | GNote _ k => instant T k
  | GAct _ k => instant T k
  | GGet k => forall s, instant T (k s)
  end.
Lemma instant_clear O id name i c bs t T : (roundtime t <= T)%Z -> instant T (proc_gen O (PReq id name MClear i c bs t)).
Proof.
  intros L. cbn [proc_gen start]. unfold g_clear. cbn [instant gcall]. intros s. destruct (clear_into _ _ _ _ _) as [w [a|e]]; cbn [instant]; [|exact I]. split; [exact L|]. destruct (truthy _) || idtac; exact I.
Qed.

Lemma resume_lasts g : forall T n b s s' ns o, lasts T n b g -> resume g s = (s', ns, o) ->
  match o with
  | OYield e k => (unknown e = false -> eproc e <> PROCEDURAL) /\ ((T <= etime e)%Z -> exists m, lasts (etime e) m (unknown e) k /\ m <= Nat.max 5 (n - 1) /\ (etime e = T -> m < n))
  | ODone => 1 <= n /\ b = false
  | OCont k => b = false /\ exists m, n = S m /\ lasts T m false k
  | ORaise _ => True
  end.
Proof.
  induction g as [|e|e g IH|g IH|x g IH|f g IH|g IH]; intros T n b s s' ns o H E; cbn [resume lasts] in *.
  - injection E as <- <- <-. exact H.
  - injection E as <- <- <-. exact I.
  - injection E as <- <- <-. destruct H as [H1 H2]. split; [exact H1|]. intros L. destruct (Z.compare_spec (etime e) T) as [C|C|C]; [|lia|].
    + destruct H2 as (m & -> & H2). exists m. rewrite C. split; [exact H2|]. split; lia.
    + exists 5. split; [exact H2|]. split; lia.
  - injection E as <- <- <-. exact H.
  - destruct (resume g s) as [[s1 ns1] o1] eqn:R. injection E as <- <- <-. exact (IH _ _ _ _ _ _ _ H R).
  - exact (IH _ _ _ _ _ _ _ H E).
  - exact (IH _ _ _ _ _ _ _ _ (H s) E).
Qed.
Lemma resume_instant g : forall T s s' ns o, instant T g -> resume g s = (s', ns, o) ->
  match o with OYield e k => (etime e <= T)%Z /\ instant T k | OCont _ => False | _ => True end.
Proof.
  induction g as [|e|e g IH|g IH|x g IH|f g IH|g IH]; intros T s s' ns o H E; cbn [resume instant] in *; try (injection E as <- <- <-; exact H).
  - destruct (resume g s) as [[s1 ns1] o1] eqn:R. injection E as <- <- <-. exact (IH _ _ _ _ _ H R).
  - exact (IH _ _ _ _ _ H E).
  - exact (IH _ _ _ _ _ _ (H s) E).
Qed.

(** ** The process of the rules after a rule has been selected *)

(** What is added to procs. *)
Definition adds (T : Z) (s s' : st) : Prop :=
  snames s' = snames s /\ snext s <= snext s' /\ exists new, sprocs s' = sprocs s ++ new /\
  forall p, In p new -> exists id n m i c bs t, p = PReq id n m i c bs t /\ queues m = true /\ snext s <= id < snext s' /\ dget (snames s) n <> None /\ (m = MClear -> (roundtime t <= T)%Z).
Lemma adds_none T s s' : snames s' = snames s -> snext s' = snext s -> sprocs s' = sprocs s -> adds T s s'.
Proof. intros A B C. split; [exact A|]. split; [lia|]. exists []. rewrite app_nil_r. split; [exact C|]. intros p []. Qed.
Lemma adds_trans T s1 s2 s3 : adds T s1 s2 -> adds T s2 s3 -> adds T s1 s3.
Proof.
  intros (A1 & A2 & n1 & A3 & A4) (B1 & B2 & n2 & B3 & B4). split; [congruence|]. split; [lia|]. exists (n1 ++ n2). split; [rewrite B3, A3, app_assoc; reflexivity|].
  intros p H. apply in_app_or in H. destruct H as [H|H].
  - destruct (A4 p H) as (id & n & m & i & c & bs & t & E & Q & L & D & F). exists id, n, m, i, c, bs, t. repeat (split; [first [assumption|lia]|]). exact F.
  - destruct (B4 p H) as (id & n & m & i & c & bs & t & E & Q & L & D & F). rewrite A1 in D. exists id, n, m, i, c, bs, t. repeat (split; [first [assumption|lia]|]). exact F.
Qed.
Lemma adds_mono T T' s s' : (T <= T')%Z -> adds T s s' -> adds T' s s'.
Proof.
  intros L (A1 & A2 & n1 & A3 & A4). split; [exact A1|]. split; [exact A2|]. exists n1. split; [exact A3|]. intros p H. destruct (A4 p H) as (id & n & m & i & c & bs & t & E & Q & L' & D & F).
  exists id, n, m, i, c, bs, t. repeat (split; [first [assumption|lia]|]). intros X. specialize (F X). lia.
Qed.
Lemma adds_tame T s s' : tame s s' -> adds T s s'.
Proof. intros [(_ & A & _) [B C]]. apply adds_none; assumption. Qed.
Fixpoint firing (T : Z) (g : gen) (s : st) {struct g} : Prop :=
  match g with
  | GRet => True
  | GRaise _ => True
  | GYield e k => (etime e < T)%Z \/ forall s', firing (etime e) k s'
  | GCont _ => False
  | GNote _ k => firing T k s
  | GAct f k => adds T s (f s) /\ firing T k (f s)
  | GGet k => firing T (k s) s
  end.
Lemma resume_firing g : forall T s s' ns o, firing T g s -> resume g s = (s', ns, o) ->
  adds T s s' /\ match o with OYield e k => (etime e < T)%Z \/ forall s2, firing (etime e) k s2 | OCont _ => False | _ => True end.
Proof.
  induction g as [|e|e g IH|g IH|x g IH|f g IH|g IH]; intros T s s' ns o H E; cbn [resume firing] in *; try (injection E as <- <- <-; split; [apply adds_none; reflexivity|exact H]).
  - destruct (resume g s) as [[s1 ns1] o1] eqn:R. injection E as <- <- <-. exact (IH _ _ _ _ _ H R).
  - destruct H as [H1 H2]. destruct (IH _ _ _ _ _ H2 E) as [A B]. split; [exact (adds_trans _ _ _ _ H1 A)|exact B].
  - exact (IH _ _ _ _ _ _ H E).
Qed.
Lemma firing_whole g k : whole g -> forall T s, (forall T' s', (T <= T')%Z -> firing T' k s') -> firing T (gseq g k) s.
Proof.
  induction g as [|e|e g IH|g IH|x g IH|f g IH|g IH]; intros W T s K; cbn [gseq firing whole] in *; auto.
  - apply K. lia.
  - destruct (Z_lt_le_dec (etime e) T) as [L|L]; [left; exact L|right]. intros s'. apply IH; [exact W|]. intros T' s2 L'. apply K. lia.
  - destruct W as [W1 W2]. split; [apply adds_tame, W1|]. apply IH; auto.
Qed.
Lemma adds_harvest t ns T : (roundtime t <= T)%Z -> forall s, adds T s (harvest ns t s).
Proof.
  intros L. induction ns as [|n ns IH]; intros s; cbn [harvest]; [apply adds_none; reflexivity|]. destruct (dget (snames s) n) as [i|] eqn:D; [|apply IH]. eapply adds_trans; [|apply IH].
  unfold add_proc. split; [reflexivity|]. split; [cbn [snext set_procs]; lia|]. eexists. split; [reflexivity|]. intros p [<-|[]]. exists (snext s), n, MClear, i, CNone, (svars s), t.
  split; [reflexivity|]. split; [reflexivity|]. split; [cbn [snext set_procs]; lia|]. split; [congruence|]. intros _. exact L.
Qed.
Lemma firing_actions O t l k : (forall T s, firing T k s) -> forall temp T s, (roundtime t <= T)%Z -> firing T (gseq (actions O t temp l) k) s.
Proof.
  intros K. induction l as [|[key c] l IH]; intros temp T s L; cbn [actions].
  - cbn [gseq firing]. destruct (qstrict (sp s)); cbn [gseq firing]; [|apply K]. split; [apply adds_harvest; exact L|apply K].
  - destruct key as [|code name]; [exact I|]. destruct (rhs_meth code) as [m|] eqn:Em; [|exact I]. cbv zeta. cbn [gseq firing]. destruct (dget (snames s) name) as [i|] eqn:D; [|exact I]. cbn [gseq firing].
    split; [apply adds_tame, tame_state|]. destruct (interruptible m) eqn:Ei.
    + cbn [gseq firing]. split; [|apply IH; exact L]. unfold add_proc. split; [reflexivity|]. split; [cbn [snext set_procs]; lia|]. eexists. split; [reflexivity|]. intros p [<-|[]].
      exists (snext (set_state i "busy" s)), name, m, i, c, (svars s), t. destruct (tame_state i "busy" s) as [(_ & N & _) _].
      split; [reflexivity|]. split; [destruct m; discriminate || reflexivity|]. split; [cbn [snext set_procs]; lia|]. split; [rewrite N; congruence|]. intros _. exact L.
    + assert (A : forall g h T' s', firing T' (gseq g (gseq h k)) s' -> firing T' (gseq (gseq g h) k) s').
      { clear. induction g as [|e|e g IH|g IH|x g IH|f g IH|g IH]; intros h T' s' H; cbn [gseq firing] in *; auto; [destruct H as [H|H]; [left; exact H|right; auto]|destruct H as [H1 H2]; auto]. }
      apply A. apply firing_whole; [apply whole_start; exact Ei|]. intros T' s' L'. apply IH. lia.
Qed.
Lemma firing_fire O r ru t T s : firing T (g_fire O r ru t) s.
Proof.
  unfold g_fire, g_update. cbn [firing]. split; [apply adds_none; reflexivity|]. destruct (Z_lt_le_dec (etime (ev t PROCEDURAL (WFired r))) T) as [L|L]; [left; exact L|right]. intros s'.
  cbn [gseq firing]. destruct (ordered_rhs (rrhs ru)) as [l|]; [|exact I]. apply firing_actions; [|cbn [ev etime]; lia].
  intros T' s2. cbn [firing]. split; [|exact I]. destruct (slast s2) as [l0|]; [destruct (_ && _)%bool|]; apply adds_none; reflexivity.
Qed.
Lemma firing_try O r t T s : firing T (g_try O r t) s.
Proof.
  unfold g_try. cbn [firing]. destruct (dget (srules s) r) as [ru|]; [|exact I]. destruct (lhs_test s (rlhs ru) (svars s)) as [[bs|]|]; [| |exact I].
  2:{ cbn [firing]. right. intros _. exact I. }
  cbv zeta. destruct (learned (set_vars bs s) ru t) as [s2|] eqn:L; [|exact I]. destruct (learned_no_new _ _ _ _ L) as (_ & _ & Q & _). cbn [sprocs set_vars] in Q.
  assert (N : snames s2 = snames s /\ snext s2 = snext s).
  { revert L. unfold learned. destruct (rreward ru); [|intros [= <-]; split; reflexivity]. destruct (qlearn _); [|intros [= <-]; split; reflexivity]. destruct (modify_utilities _ _ _ _ _); [|discriminate]. intros [= <-]. split; reflexivity. }
  destruct N as [N1 N2].
  destruct (compile_now O s2) as [[[[n again] rs]|]|e]; cbn [firing]; (split; [apply adds_none; cbn; assumption|]).
  - right. intros s'. apply firing_fire.
  - apply firing_fire.
  - exact I.
Qed.

(** ** No rule matches *)

Definition NoMatch (s : st) : Prop := dget (srules s) "" = None -> forall n, In n (sorder s) -> ~ rule_matches s n.
Lemma matches_same s s' n : srules s' = srules s -> snames s' = snames s -> sw s' = sw s -> smods s' = smods s -> rule_matches s' n -> rule_matches s n.
Proof.
  intros E1 E2 E3 E4 (ru & b & H1 & H2). exists ru, b. split; [congruence|]. revert H2. generalize (rlhs ru) nobind b. intros l b0 b1 H. induction H as [b2|k c l b2 b3 b4 H _ IH]; [constructor|].
  apply conds_cons with b3; [|exact IH]. destruct H as [name p d rest b5 b6 A B C|name d b5 A].
  - apply test_holds with rest; auto. unfold content_of in *. rewrite E2, E3 in A. exact A.
  - apply query_holds. intros a v Hv. destruct (A a v Hv) as (i & bf & m & X1 & X2 & X3). exists i, bf, m. rewrite <- E2, <- E3, <- E4. auto.
Qed.
Lemma NoMatch_same s s' : srules s' = srules s -> sorder s' = sorder s -> snames s' = snames s -> sw s' = sw s -> smods s' = smods s -> NoMatch s -> NoMatch s'.
Proof. intros E0 E1 E2 E3 E4 H N n Hn M. rewrite E0 in N. rewrite E1 in Hn. apply (H N n Hn). exact (matches_same s s' n E0 E2 E3 E4 M). Qed.
Lemma select_NoMatch O s : svars s = nobind -> select O s = Ok None -> NoMatch s.
Proof.
  intros V H N n Hn M. unfold select in H. destruct (select_from O s 0 (sorder s) None None) as [r|e] eqn:E; [|discriminate]. cbn [rbind] in H.
  assert (D : quiet_noise s \/ (qsub (sp s) = true /\ ~ qnoise (sp s) == 0)).
  { unfold quiet_noise. destruct (qsub (sp s)); [|auto]. destruct (Qeq_dec (qnoise (sp s)) 0); auto. }
  assert (Em : forall m, rule_matches s m -> m <> "") by (intros m (ru & b & X & _) ->; congruence).
  destruct D as [D|[D1 D2]].
  - destruct (select_quiet O s D V _ _ _ _ E) as [[-> A]|(b & m & a & E1 & -> & A & _)]; [exact (A n Hn M)|]. destruct m; [exact (Em _ A eq_refl)|discriminate].
  - destruct (select_noisy O s D1 D2 V _ _ _ _ _ E) as [[-> A]|(j & m & _ & -> & A & _)]; [congruence| |].
    + apply In_nth_error in Hn. destruct Hn as [j Hj]. destruct (A j n Hj M) as (q & X & _). discriminate.
    + destruct m; [exact (Em _ A eq_refl)|discriminate].
Qed.
