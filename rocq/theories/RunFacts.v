(** Running and stepping: what one step of simpy adds to the trace, and how pieces of a run fit together. *)
From Coq Require Import Lia Sorted.
From Verif Require Import Base BaseFacts Chunks DecMem Buffers BufferFacts Productions ProdSpec LearnFacts Sim SimFacts Run RunSpec.
Local Open Scope string_scope.
Local Open Scope list_scope.
Local Open Scope nat_scope.

(** ** What the code of a process leaves alone *)

Record hush (S S' : sim) : Prop := MkHush {
  h_now : now S' = now S;
  h_log : log S' = log S;
  h_dead : dead S' = dead S;
  h_todo : todo S' = todo S;
  h_evs : List.length (evs S) <= List.length (evs S');
  h_prs : exists new, prs S' = prs S ++ new /\ Forall (fun r => due (pcode r) = None) new }.
Lemma hush_refl S : hush S S.
Proof. constructor; auto. exists []. rewrite app_nil_r. auto. Qed.
Lemma hush_trans S1 S2 S3 : hush S1 S2 -> hush S2 S3 -> hush S1 S3.
Proof.
  intros [a1 a2 a3 a4 a5 (n1 & a6 & a7)] [b1 b2 b3 b4 b5 (n2 & b6 & b7)]. constructor; try congruence; [lia|].
  exists (n1 ++ n2). rewrite b6, a6, app_assoc. split; [reflexivity|]. apply Forall_app. auto.
Qed.
Lemma hush_same S S' : now S' = now S -> log S' = log S -> dead S' = dead S -> todo S' = todo S ->
  List.length (evs S) <= List.length (evs S') -> prs S' = prs S -> hush S S'.
Proof. intros. constructor; auto. exists []. rewrite app_nil_r. auto. Qed.

Definition still {A} (m : M A) : Prop := forall S, hush S (fst (m S)).
Lemma still_ret {A} (a : A) : still (ret a).
Proof. intros S. apply hush_refl. Qed.
Lemma still_throw {A} t : still (@throw A t).
Proof. intros S. apply hush_refl. Qed.
Lemma still_get : still get.
Proof. intros S. apply hush_refl. Qed.
Lemma still_bind {A B} (m : M A) (k : A -> M B) : still m -> (forall a, still (k a)) -> still (bind m k).
Proof.
  intros Hm Hk S. unfold bind. pose proof (Hm S) as H. destruct (m S) as [S1 [a|t]]; cbn [fst] in H |- *; [|exact H].
  eapply hush_trans; [exact H|apply Hk].
Qed.
Lemma still_upd f : (forall S, hush S (f S)) -> still (upd_ f).
Proof. intros H S. apply H. Qed.
Lemma still_mk r v d c : still (mk_event r v d c).
Proof. intros S. apply hush_same; try reflexivity. cbn. rewrite app_length. lia. Qed.
Lemma still_new r : still (new_event r).
Proof. apply still_mk. Qed.
Lemma still_schedule p d ev : still (schedule p d ev).
Proof. intros S. apply hush_same; reflexivity || (cbn; lia). Qed.
Lemma still_set_event ev f : still (set_event ev f).
Proof.
  intros S. unfold set_event, upd_. cbn [fst]. destruct (nth_error (evs S) ev); [|apply hush_refl].
  apply hush_same; try reflexivity. cbn. rewrite upd_length. lia.
Qed.
Ltac still :=
  repeat match goal with
    | |- still (ret _) => apply still_ret
    | |- still (throw _) => apply still_throw
    | |- still get => apply still_get
    | |- still (mk_event _ _ _ _) => apply still_mk
    | |- still (new_event _) => apply still_new
    | |- still (schedule _ _ _) => apply still_schedule
    | |- still (set_event _ _) => apply still_set_event
    | |- still (bind _ _) => apply still_bind; [|intros ?]
    | |- still (match ?x with _ => _ end) => destruct x
    | |- still (upd_ _) => apply still_upd; intros ?; apply hush_same; (reflexivity || (cbn; lia))
    | _ => assumption
    end.
Lemma still_succeed ev : still (succeed ev).
Proof. unfold succeed. still. Qed.
Lemma still_timeout d : still (timeout d).
Proof. unfold timeout. still. Qed.
Lemma still_spawn c : due c = None -> still (spawn c).
Proof.
  intros H. unfold spawn. still. apply still_upd. intros S. constructor; try reflexivity.
  eexists. split; [reflexivity|]. repeat constructor. exact H.
Qed.
Lemma still_interrupt a p : still (interrupt a p).
Proof. unfold interrupt. still. Qed.
Lemma still_check c ev : still (check c ev).
Proof. unfold check, defuse. still; apply still_succeed. Qed.
Lemma still_any_of a b : still (any_of a b).
Proof. unfold any_of, watch, add_cb. still; apply still_check. Qed.
Lemma still_activate e : still (activate e).
Proof. unfold activate. still; apply still_succeed. Qed.
Lemma still_interact : still interact.
Proof. unfold interact. still; apply still_succeed. Qed.
Lemma still_put l : still (upd_ (put_started l)).
Proof. apply still_upd. intros S. unfold put_started. destruct (early S); apply hush_same; reflexivity || (cbn; lia). Qed.
Lemma still_act_of n : still (act_of n).
Proof. unfold act_of. still. Qed.
Lemma still_interrupt_extra a n : still (interrupt_extra a n).
Proof. unfold interrupt_extra. still; apply still_interrupt. Qed.
Lemma still_launch a p : still (launch a p).
Proof. unfold launch. destruct p; still; try apply still_act_of; try apply still_interrupt_extra; try apply still_succeed. Qed.
Lemma still_launch_all a l : still (launch_all a l).
Proof. induction l; cbn [launch_all]; still. apply still_launch. Qed.
Lemma still_zero k : still (zero k).
Proof. unfold zero. apply still_bind; [apply still_timeout|intros; apply still_ret]. Qed.
Lemma still_wait c p : still (wait_for c p).
Proof. unfold wait_for. still. Qed.
Lemma still_proc_loop a : still (proc_loop a).
Proof. unfold proc_loop. still; first [apply still_put|apply still_launch_all|apply still_zero]. Qed.
Lemma still_extra_loop O n : still (extra_loop O n).
Proof.
  unfold extra_loop. apply still_bind; [apply still_get|intros S].
  assert (G : forall p l, still (upd_ (put_started l) ;! (let! ev := act_of n in let! S := get in (if trig S ev then ret tt else succeed ev) ;!
              let! pro := spawn (KLocal0 false n (proc_gen O p)) in wait_for (KExtraPro n pro) pro))).
  { intros p l. apply still_bind; [apply still_put|intros _]. apply still_bind; [apply still_act_of|intros ev]. apply still_bind; [apply still_get|intros S1].
    apply still_bind; [destruct (trig S1 ev); [apply still_ret|apply still_succeed]|intros _].
    apply still_bind; [apply still_spawn; reflexivity|intros; apply still_wait]. }
  destruct (take_proc n _) as [[p l]|]; [destruct p; [apply still_throw|apply G|apply G]|].
  still. apply still_act_of.
Qed.
Lemma still_auto a nb : still (auto a nb).
Proof.
  destruct nb as [n i]. unfold auto. still; try first [apply still_act_of|apply still_succeed|apply still_interrupt_extra].
  all: apply still_upd; intros S; unfold put_started; destruct (early S); apply hush_same; reflexivity || (cbn; lia).
Qed.
Lemma still_auto_all a l : still (auto_all a l).
Proof. induction l; cbn [auto_all]; still. apply still_auto. Qed.
Lemma still_env_loop e g : still (env_loop e g).
Proof. unfold env_loop. still; [apply still_spawn; reflexivity|apply still_any_of]. Qed.
Lemma still_env_next g k : (forall r, still (k r)) -> still (env_next g k).
Proof.
  intros H S. unfold env_next. destruct (resume g (ss S)) as [[s' ns] o].
  assert (H0 : hush S (set_ss s' S)) by (apply hush_same; reflexivity || (cbn; lia)).
  destruct o; try exact H0; eapply hush_trans; try exact H0; apply H.
Qed.
Lemma still_local_next b n g : still (local_next b n g).
Proof.
  intros S. unfold local_next. destruct (resume g (ss S)) as [[s' ns] o].
  assert (H0 : hush S (set_ss s' S)) by (apply hush_same; reflexivity || (cbn; lia)).
  destruct o as [|x|e k|x]; try exact H0. eapply hush_trans; [exact H0|].
  apply (still_bind _ (fun ev => ret (NWait (KLocal b n e k) ev))); [apply still_timeout|intros; apply still_ret].
Qed.

(** The code of a process writes to the trace only at the time that it waited for. *)
Lemma go_on_still O p c o : due c = None \/ (exists t, o = Bad t) -> still (go_on O p c o).
Proof.
  intros H. destruct c; destruct o as [v|t]; cbn [go_on];
    try (destruct H as [H|(t & H)]; [discriminate|discriminate]); try apply still_throw; try apply still_ret.
  - still; [apply still_spawn; reflexivity|apply still_wait].
  - still; apply still_proc_loop.
  - apply still_zero.
  - destruct more; [|apply still_zero]. still; [apply still_spawn; reflexivity|apply still_wait].
  - destruct more; still.
  - apply still_extra_loop.
  - still. apply still_extra_loop.
  - destruct v; try apply still_extra_loop. still; [apply still_spawn; reflexivity|apply still_wait].
  - destruct t; still; [apply still_interrupt|apply still_extra_loop].
  - apply still_extra_loop.
  - destruct t; still. apply still_extra_loop.
  - apply still_local_next.
  - destruct t; still.
  - apply still_env_next. intros r. still. apply still_env_loop.
  - still; [apply still_interrupt|]. apply still_env_next. intros r. still; [apply still_auto_all|apply still_env_loop].
  - still; try apply still_activate. apply still_timeout.
  - destruct t; still; apply still_activate.
Qed.

(** New events to wait for. *)
Definition fresh (m : M nxt) : Prop := forall S S' c ev, m S = (S', inl (NWait c ev)) -> due c = None \/ List.length (evs S) <= ev.
Lemma fresh_bind {A} (m : M A) (k : A -> M nxt) : still m -> (forall a, fresh (k a)) -> fresh (bind m k).
Proof.
  intros Hm Hk S S' c ev. unfold bind. pose proof (h_evs _ _ (Hm S)) as H. destruct (m S) as [S1 [a|t]]; cbn [fst] in H; [|discriminate].
  intros E. destruct (Hk a _ _ _ _ E) as [D|D]; [auto|right; lia].
Qed.
Lemma fresh_wait c ev : due c = None -> fresh (ret (NWait c ev)).
Proof. intros H S S' c' ev' [= <- <- <-]. auto. Qed.
Lemma fresh_done v : fresh (ret (NDone v)).
Proof. intros S S' c' ev' [= ]. Qed.
Lemma fresh_throw t : fresh (throw t).
Proof. intros S S' c' ev' [= ]. Qed.
Lemma fresh_timeout d f : fresh (let! ev := timeout d in ret (NWait (f ev) ev)).
Proof.
  intros S S' c ev. unfold timeout. destruct (Z.ltb d 0); [discriminate|]. cbn. intros [= _ _ <-]. right. lia.
Qed.
Lemma fresh_wait_for c p : due c = None -> fresh (wait_for c p).
Proof. intros H. unfold wait_for. apply fresh_bind; [apply still_get|]. intros. apply fresh_wait. exact H. Qed.
Lemma fresh_zero k : fresh (zero k).
Proof. unfold zero. apply fresh_timeout. Qed.
Lemma fresh_proc_loop a : fresh (proc_loop a).
Proof.
  unfold proc_loop. apply fresh_bind; [apply still_get|intros S]. destruct (remove_procedural _); [|apply fresh_wait; reflexivity].
  apply fresh_bind; [apply still_put|intros _]. apply fresh_bind; [apply still_launch_all|intros _]. apply fresh_zero.
Qed.
Lemma fresh_spawn c (k : nat -> code) : due c = None -> (forall p, due (k p) = None) -> fresh (let! pro := spawn c in wait_for (k pro) pro).
Proof. intros H Hk. apply fresh_bind; [apply still_spawn; exact H|]. intros. apply fresh_wait_for. apply Hk. Qed.
Lemma fresh_extra_loop O n : fresh (extra_loop O n).
Proof.
  unfold extra_loop. apply fresh_bind; [apply still_get|intros S].
  assert (G : forall p l, fresh (upd_ (put_started l) ;! (let! ev := act_of n in let! S := get in (if trig S ev then ret tt else succeed ev) ;!
              let! pro := spawn (KLocal0 false n (proc_gen O p)) in wait_for (KExtraPro n pro) pro))).
  { intros p l. apply fresh_bind; [apply still_put|intros _]. apply fresh_bind; [apply still_act_of|intros ev]. apply fresh_bind; [apply still_get|intros S1].
    apply fresh_bind; [destruct (trig S1 ev); [apply still_ret|apply still_succeed]|intros _]. apply fresh_spawn; reflexivity. }
  destruct (take_proc n _) as [[p l]|]; [destruct p; [apply fresh_throw|apply G|apply G]|].
  apply fresh_bind; [still|intros _]. apply fresh_bind; [apply still_act_of|intros ev]. apply fresh_wait. reflexivity.
Qed.
Lemma fresh_env_loop e g : fresh (env_loop e g).
Proof.
  unfold env_loop. apply fresh_bind; [apply still_spawn; reflexivity|intros pro]. apply fresh_bind; [apply still_get|intros S].
  apply fresh_bind; [apply still_any_of|intros c]. apply fresh_wait. reflexivity.
Qed.
Lemma fresh_env_next g k : (forall r, fresh (k r)) -> fresh (env_next g k).
Proof.
  intros H S S' c ev. unfold env_next. destruct (resume g (ss S)) as [[s' ns] o]. destruct o; try discriminate; intros E; apply H in E; exact E.
Qed.
Lemma fresh_local_next b n g : fresh (local_next b n g).
Proof.
  intros S S' c ev. unfold local_next. destruct (resume g (ss S)) as [[s' ns] o]. destruct o as [|x|e k|x]; try discriminate.
  intros E. apply (fresh_timeout _ (fun _ => KLocal b n e k)) in E. exact E.
Qed.
Lemma note_evs e S : List.length (evs (fst (note e S))) = List.length (evs S).
Proof. reflexivity. Qed.
Lemma fresh_note e (k : M nxt) : fresh k -> fresh (note e ;! k).
Proof. intros H S S' c ev E. unfold bind, note, upd_ in E. apply H in E. exact E. Qed.
Lemma go_on_fresh O p c o : fresh (go_on O p c o).
Proof.
  destruct c; destruct o as [v|t]; cbn [go_on]; try apply fresh_throw; try apply fresh_done.
  - apply fresh_bind; [apply still_get|intros S]. apply (fresh_spawn _ (fun _ => KProcPro true)); reflexivity.
  - apply fresh_bind; [still|intros _]. apply fresh_bind; [still|intros _]. apply fresh_proc_loop.
  - apply fresh_zero.
  - destruct more; [|apply fresh_zero]. apply fresh_bind; [apply still_get|intros S]. apply (fresh_spawn _ (fun _ => KProcPro false)); reflexivity.
  - destruct more; apply fresh_throw.
  - apply fresh_extra_loop.
  - apply fresh_bind; [still|intros ev]. apply fresh_bind; [still|intros _]. apply fresh_extra_loop.
  - destruct v; try apply fresh_extra_loop. apply (fresh_spawn _ (fun p => KExtraCont name p)); reflexivity.
  - destruct t; try apply fresh_throw. apply fresh_bind; [apply still_get|intros S]. apply fresh_bind; [|intros _; apply fresh_extra_loop].
    destruct (ended pro S); [apply still_ret|apply still_interrupt].
  - apply fresh_extra_loop.
  - destruct t; try apply fresh_throw. apply fresh_extra_loop.
  - apply fresh_local_next.
  - apply fresh_note. apply fresh_bind; [apply still_activate|intros _]. apply fresh_bind; [apply still_interact|intros _]. apply fresh_local_next.
  - destruct t; first [apply fresh_throw|apply fresh_done].
  - apply fresh_env_next. intros [[e g']|]; [apply fresh_env_loop|apply fresh_throw].
  - apply fresh_bind; [apply still_get|intros S]. apply fresh_bind.
    + destruct (trig S (eact S)); still. apply still_interrupt.
    + intros _. apply fresh_env_next. intros [[e g']|]; [|apply fresh_done]. apply fresh_bind; [apply still_get|intros S1].
      apply fresh_bind; [apply still_auto_all|intros _]. apply fresh_env_loop.
  - apply fresh_bind; [apply still_get|intros S]. destruct (Z.ltb _ _).
    + apply fresh_bind; [apply still_activate|intros _]. apply fresh_throw.
    + apply (fresh_timeout _ (fun _ => KEnvP e)).
  - apply fresh_note. apply fresh_bind; [apply still_activate|intros _]. apply fresh_done.
  - destruct t; (apply fresh_bind; [apply still_activate|intros _]); first [apply fresh_throw|apply fresh_done].
Qed.

(** At that time it writes its event, and nothing else. *)
Definition said (c : code) : option event := match c with KLocal _ _ e _ | KEnvP e => Some e | _ => None end.
Lemma go_on_says O p c v e S : said c = Some e -> hush (set_log (log S ++ [(now S, e)]) S) (fst (go_on O p c (Good v) S)).
Proof.
  intros H. destruct c; try discriminate; injection H as ->; cbn [go_on].
  - apply (still_bind (activate e) (fun _ => interact ;! local_next isproc name g)); [apply still_activate|intros _].
    apply still_bind; [apply still_interact|intros _]. apply still_local_next.
  - apply (still_bind (activate e) (fun _ => ret (NDone XUnit))); [apply still_activate|intros _]. apply still_ret.
Qed.
Lemma said_due c : said c = None <-> due c = None.
Proof. destruct c; cbn; split; congruence. Qed.

(** ** One piece of work *)

(** Processes that wait for a time wait for different events. *)
Definition apart (S : sim) : Prop := forall p q r r', p <> q -> proc_at p S = Some r -> proc_at q S = Some r' ->
  due (pcode r) <> None -> due (pcode r') <> None -> ptarget r <> ptarget r'.
Definition duep (S : sim) (p : nat) : bool :=
  match proc_at p S with Some r => match due (pcode r) with Some _ => true | None => false end | None => false end.
(** Work that writes to the trace. *)
Definition ripe (S : sim) (w : work) : bool :=
  match w with WCb _ (CResume p) | WRun p (Good _) => duep S p | _ => false end.
Definition ripes (S : sim) : nat := List.length (filter (ripe S) (todo S)).

Lemma set_prc_at p r f S : proc_at p S = Some r -> set_prc p f S = set_prs (upd (prs S) p (f r)) S.
Proof. unfold proc_at, set_prc. intros ->. reflexivity. Qed.
Lemma upd_app_old {A} (l new : list A) p (x : A) : p < List.length l -> upd (l ++ new) p x = upd l p x ++ new.
Proof. revert p. induction l as [|a l IH]; intros [|p] H; cbn in *; try lia; [reflexivity|]. rewrite IH by lia. reflexivity. Qed.
Lemma upd_upd {A} (l : list A) p (x y : A) : upd (upd l p x) p y = upd l p y.
Proof. revert p. induction l as [|a l IH]; intros [|p]; cbn; try reflexivity. rewrite IH. reflexivity. Qed.

Lemma end_process_sum p r o S : proc_at p S = Some r ->
  log (end_process p o S) = log S /\ todo (end_process p o S) = todo S /\ dead (end_process p o S) = dead S /\
  prs (end_process p o S) = upd (prs S) p (MkPrc (pkind r) (pown r) (ptarget r) KEnd) /\ List.length (evs (end_process p o S)) = List.length (evs S).
Proof.
  intros H. unfold end_process. rewrite (set_prc_at _ _ _ _ H). generalize (own_event p S). intros ev. unfold exec_, bind, set_event, schedule, upd_. cbn.
  destruct (nth_error (evs S) ev); cbn; rewrite ?upd_length; auto.
Qed.
Lemma hand_over_sum p r c ev e S : proc_at p S = Some r -> event_at ev S = Some e ->
  let S' := hand_over p ev (set_prc p (fun r => MkPrc (pkind r) (pown r) (ptarget r) c) S) in
  log S' = log S /\ dead S' = dead S /\ List.length (evs S') = List.length (evs S) /\
  ((exists o, todo S' = WRun p o :: todo S /\ processed ev S = true /\ prs S' = upd (prs S) p (MkPrc (pkind r) (pown r) (ptarget r) c)) \/
   (todo S' = todo S /\ prs S' = upd (prs S) p (MkPrc (pkind r) (pown r) ev c))).
Proof.
  intros H He. cbv zeta. rewrite (set_prc_at _ _ _ _ H). cbv beta. set (r1 := MkPrc _ _ _ c). set (S1 := set_prs _ S).
  assert (He1 : event_at ev S1 = Some e) by exact He. unfold hand_over. rewrite He1.
  assert (Add : let S' := set_prc p (fun r => MkPrc (pkind r) (pown r) ev (pcode r)) (exec_ (add_cb ev (CResume p)) S1) in
    log S' = log S /\ dead S' = dead S /\ List.length (evs S') = List.length (evs S) /\ todo S' = todo S /\ prs S' = upd (prs S) p (MkPrc (pkind r) (pown r) ev c)).
  { cbv zeta. unfold exec_, add_cb, set_event, upd_. cbn [fst]. change (nth_error (evs S1) ev) with (event_at ev S1). rewrite He1.
    rewrite (set_prc_at p r1). 2:{ unfold proc_at, S1. cbn. apply (upd_same _ _ _ r). exact H. }
    cbn. rewrite upd_length, upd_upd. auto. }
  destruct (ecbs e) as [l|] eqn:Ec; [destruct Add as (a & b & c' & d & f); repeat split; auto|].
  destruct (evalue e) as [o|]; [|destruct Add as (a & b & c' & d & f); repeat split; auto].
  set (S2 := exec_ _ S1). assert (E2 : log S2 = log S /\ dead S2 = dead S /\ todo S2 = todo S /\ prs S2 = upd (prs S) p r1 /\ List.length (evs S2) = List.length (evs S)).
  { unfold S2. destruct o; [repeat split; reflexivity|]. unfold exec_, defuse, set_event, upd_. cbn [fst]. change (nth_error (evs S1) ev) with (event_at ev S1). rewrite He1.
    cbn. rewrite upd_length. auto. }
  destruct E2 as (a & b & c' & d & f). repeat split; auto. left. exists o. split; [reflexivity|]. split; [|exact d]. unfold processed. rewrite He, Ec. reflexivity.
Qed.

Definition told (c : code) (o : outcome) : list event := match o with Good _ => match said c with Some e => [e] | None => [] end | Bad _ => [] end.

Lemma run_sum O p o l r S : Inv S -> todo S = WRun p o :: l -> proc_at p S = Some r ->
  let S' := work_off O (WRun p o) (set_todo l S) in
  log S' = log S ++ map (pair (now S)) (told (pcode r) o) /\ dead S' = dead S /\ List.length (evs S) <= List.length (evs S') /\
  exists r' new, prs S' = upd (prs S) p r' ++ new /\ Forall (fun x => due (pcode x) = None) new /\
    (due (pcode r') = None \/ List.length (evs S) <= ptarget r') /\
    (todo S' = l \/ exists o', todo S' = WRun p o' :: l /\ due (pcode r') = None).
Proof.
  intros H E Hr. destruct (Inv_tail _ _ _ H E) as [H1 Nc]. cbv zeta. cbn [work_off].
  change (nth_error (prs (set_todo l S)) p) with (proc_at p S). rewrite Hr.
  pose proof (i_kind _ H1 p r Hr) as [Hk Hkn]. pose proof (i_fits _ H1 p r Hr) as Hf.
  assert (G : tri2 (go_on O p (pcode r) o) (set_todo l S) (lands (pkind r))).
  { apply (go_on_ok _ _ _ _ _ (ptarget r)); auto; [destruct Hk; auto|apply (i_env _ H1 _ _ Hr)|].
    intros v t -> D. apply (i_due _ H p r v t Hr); [|exact D]. rewrite E. left. reflexivity. }
  unfold tri2 in G.
  assert (Hh : hush (set_log (log S ++ map (pair (now S)) (told (pcode r) o)) (set_todo l S)) (fst (go_on O p (pcode r) o (set_todo l S)))).
  { unfold told. destruct o as [v|t].
    - destruct (said (pcode r)) as [e|] eqn:Es; [exact (go_on_says O p _ v _ (set_todo l S) Es)|].
      cbn [map]. rewrite app_nil_r. exact (go_on_still O p (pcode r) (Good v) (or_introl (proj1 (said_due _) Es)) (set_todo l S)).
    - cbn [map]. rewrite app_nil_r. exact (go_on_still O p (pcode r) (Bad t) (or_intror (ex_intro _ t eq_refl)) (set_todo l S)). }
  pose proof (go_on_fresh O p (pcode r) o (set_todo l S)) as Fr.
  destruct (go_on O p (pcode r) o (set_todo l S)) as [S2 x] eqn:Eg. destruct G as (H2 & W & L). cbn [fst] in Hh.
  pose proof (wide_proc _ _ _ _ W Hr) as Hr2. destruct Hh as [_ Hlog Hdead Htodo Hevs (new & Hprs & Hnew)]. cbn in Hlog, Hdead, Htodo, Hevs, Hprs.
  assert (Hp : p < List.length (prs S)) by (apply nth_error_Some; unfold proc_at in Hr; congruence).
  assert (Fin : forall o', let S' := end_process p o' S2 in
    log S' = log S ++ map (pair (now S)) (told (pcode r) o) /\ dead S' = dead S /\ List.length (evs S) <= List.length (evs S') /\
    exists r' new, prs S' = upd (prs S) p r' ++ new /\ Forall (fun x => due (pcode x) = None) new /\
      (due (pcode r') = None \/ List.length (evs S) <= ptarget r') /\
      (todo S' = l \/ exists o', todo S' = WRun p o' :: l /\ due (pcode r') = None)).
  { intros o'. cbv zeta. destruct (end_process_sum p r o' S2 Hr2) as (A & B & C & D & F). rewrite A, B, C, D, F, Hlog, Hdead, Htodo. repeat split; auto.
    eexists _, new. rewrite Hprs, upd_app_old by exact Hp. repeat split; auto. }
  destruct x as [[c ev|v]|t]; try apply Fin.
  destruct L as (Kk & (e & He & _) & Ft & Fm). destruct (hand_over_sum p r c ev e S2 Hr2 He) as (A & B & C & D).
  cbv zeta in A, B, C, D. rewrite A, B, C, Hlog, Hdead. repeat split; auto.
  destruct (Fr _ _ _ eq_refl) as [F|F].
  - destruct D as [(o' & D1 & D2 & D3)|(D1 & D2)].
    + eexists _, new. rewrite D3, Hprs, upd_app_old by exact Hp. split; [reflexivity|]. repeat split; auto. right. exists o'. rewrite D1, Htodo. auto.
    + eexists _, new. rewrite D2, Hprs, upd_app_old by exact Hp. split; [reflexivity|]. repeat split; auto. left. congruence.
  - destruct D as [(o' & D1 & D2 & D3)|(D1 & D2)].
    + eexists _, new. rewrite D3, Hprs, upd_app_old by exact Hp. split; [reflexivity|]. 
      assert (Dn : due c = None) by (destruct (due c) as [t|] eqn:Dc; [|reflexivity]; rewrite (Fm (due_firm _ _ Dc)) in D2; discriminate).
      repeat split; auto. right. exists o'. rewrite D1, Htodo. auto.
    + eexists _, new. rewrite D2, Hprs, upd_app_old by exact Hp. split; [reflexivity|]. repeat split; auto. left. congruence.
Qed.

Lemma cb_sum O w l S : Inv S -> todo S = w :: l -> (forall p o, w = WRun p o -> proc_at p S = None) ->
  let S' := work_off O w (set_todo l S) in
  log S' = log S /\ List.length (evs S) <= List.length (evs S') /\
  (exists new, prs S' = prs S ++ new /\ Forall (fun x => due (pcode x) = None) new) /\
  (todo S' = l \/ (exists p o, todo S' = WRun p o :: l /\ ((exists ev, w = WCb ev (CResume p)) \/ exists t, o = Bad t))).
Proof.
  intros H E Hw. cbv zeta.
  assert (Nil : exists new, prs S = prs S ++ new /\ Forall (fun x => due (pcode x) = None) new) by (exists []; rewrite app_nil_r; auto).
  assert (Df : forall ev0 S0, let S1 := exec_ (defuse ev0) S0 in log S1 = log S0 /\ List.length (evs S1) = List.length (evs S0) /\ prs S1 = prs S0 /\ todo S1 = todo S0).
  { intros ev0 S0. cbv zeta. unfold exec_, defuse, set_event, upd_. cbn [fst]. destruct (nth_error _ _); cbn; rewrite ?upd_length; auto. }
  destruct w as [ev [p|p|c]|p o|ev]; cbn [work_off].
  - destruct (event_at _ _) as [e|]; [|cbn; auto]. destruct (evalue e) as [o|]; [|cbn; auto].
    assert (X : let S1 := exec_ match o with Good _ => ret tt | Bad _ => defuse ev end (set_todo l S) in log S1 = log S /\ List.length (evs S1) = List.length (evs S) /\ prs S1 = prs S /\ todo S1 = l).
    { destruct o; [cbn; auto|apply (Df ev (set_todo l S))]. }
    cbv zeta in X. destruct X as (A & B & C & D). split; [exact A|]. split; [apply Nat.eq_le_incl; symmetry; exact B|]. split; [exists []; rewrite app_nil_r; auto|].
    right. exists p, o. split; [cbn [todo set_todo]; reflexivity|]. left. eauto.
  - destruct (ended _ _); [cbn; auto|]. destruct (nth_error _ _) as [r|]; [|cbn; auto].
    set (S1 := exec_ _ (set_todo l S)).
    assert (X : log S1 = log S /\ List.length (evs S1) = List.length (evs S) /\ prs S1 = prs S /\ todo S1 = l).
    { unfold S1, exec_, set_event, upd_. cbn [fst]. destruct (nth_error _ _); cbn; rewrite ?upd_length; auto. }
    destruct X as (A & B & C & D). split; [exact A|]. split; [apply Nat.eq_le_incl; symmetry; exact B|]. split; [exists []; rewrite app_nil_r; auto|].
    right. exists p, (Bad TInterrupt). split; [cbn [todo set_todo]; rewrite D; reflexivity|]. right. eauto.
  - destruct (still_check c ev (set_todo l S)) as [_ A _ B C (new & D & F)]. unfold exec_. cbn in *. repeat split; eauto.
  - change (nth_error (prs (set_todo l S)) p) with (proc_at p S). rewrite (Hw p o eq_refl). cbn. auto.
  - destruct (event_at _ _) as [e|]; [|cbn; auto]. destruct (evalue e) as [[v|t]|]; try (cbn; auto; fail). destruct (edefused e); cbn; auto.
Qed.

Lemma due_old S p r : Inv S -> proc_at p S = Some r -> due (pcode r) <> None -> ptarget r < List.length (evs S).
Proof.
  intros H Hr D. pose proof (i_fits _ H _ _ Hr) as F. apply nth_error_Some. destruct (pcode r); cbn in D, F; try congruence; destruct F as (ee & He & _); unfold event_at in He; congruence.
Qed.
Lemma proc_new (S' : sim) l new p : prs S' = l ++ new -> Forall (fun x => due (pcode x) = None) new -> forall r, proc_at p S' = Some r -> due (pcode r) <> None ->
  nth_error l p = Some r.
Proof.
  unfold proc_at. intros -> F r Hr D. destruct (Nat.lt_ge_cases p (List.length l)) as [L|L]; [rewrite nth_error_app1 in Hr by exact L; exact Hr|].
  rewrite nth_error_app2 in Hr by exact L. apply nth_error_In in Hr. rewrite Forall_forall in F. elim (D (F _ Hr)).
Qed.
Lemma duep_new (S' : sim) l new p : prs S' = l ++ new -> Forall (fun x => due (pcode x) = None) new ->
  duep S' p = match nth_error l p with Some r => match due (pcode r) with Some _ => true | None => false end | None => false end.
Proof.
  unfold duep, proc_at. intros -> F. destruct (Nat.lt_ge_cases p (List.length l)) as [L|L]; [rewrite nth_error_app1 by exact L; reflexivity|].
  rewrite nth_error_app2 by exact L. rewrite (proj2 (nth_error_None l p) L). destruct (nth_error new (p - List.length l)) as [r|] eqn:E; [|reflexivity].
  apply nth_error_In in E. rewrite Forall_forall in F. rewrite (F _ E). reflexivity.
Qed.

Lemma filter_ext_in' {A} (f g : A -> bool) l : (forall a, In a l -> f a = g a) -> filter f l = filter g l.
Proof.
  induction l as [|a l IH]; intros H; cbn; [reflexivity|]. rewrite H by (left; reflexivity). rewrite IH; [reflexivity|]. intros; apply H; right; assumption.
Qed.
Lemma work_apart O w l S : Inv S -> apart S -> todo S = w :: l ->
  let S' := work_off O w (set_todo l S) in
  apart S' /\ List.length (log S') + ripes S' <= List.length (log S) + ripes S /\
  (exists new, log S' = log S ++ new /\ Forall (fun te => fst te = now S) new).
Proof.
  intros H Ha E. cbv zeta.
  assert (D : (exists p o r, w = WRun p o /\ proc_at p S = Some r) \/ (forall p o, w = WRun p o -> proc_at p S = None)).
  { destruct w as [ev c|p o|ev]; try (right; discriminate). destruct (proc_at p S) as [r|] eqn:Hr; [left; exists p, o, r; auto|right]. intros ? ? [= <- <-]. exact Hr. }
  destruct D as [(p & o & r & -> & Hr)|Hw].
  - destruct (run_sum O p o l r S H E Hr) as (Lg & Dd & Ev & r' & new & Pr & Nw & Fr & Td). cbv zeta in *. set (S' := work_off O (WRun p o) (set_todo l S)) in *.
    assert (Hp : nth_error (upd (prs S) p r') p = Some r') by (apply (upd_same _ _ _ r); exact Hr).
    assert (Ho : forall q, q <> p -> nth_error (upd (prs S) p r') q = proc_at q S) by (intros q N; apply upd_other; exact N).
    split; [|split].
    + intros a b ra rb Nab Ra Rb Da Db. pose proof (proc_new _ _ _ _ Pr Nw _ Ra Da) as Qa. pose proof (proc_new _ _ _ _ Pr Nw _ Rb Db) as Qb.
      destruct (Nat.eq_dec a p) as [->|Na]; [|destruct (Nat.eq_dec b p) as [->|Nb]].
      * rewrite Hp in Qa. injection Qa as <-. rewrite Ho in Qb by auto. pose proof (due_old _ _ _ H Qb Db). destruct Fr as [Fr|Fr]; [contradiction|lia].
      * rewrite Hp in Qb. injection Qb as <-. rewrite Ho in Qa by auto. pose proof (due_old _ _ _ H Qa Da). destruct Fr as [Fr|Fr]; [contradiction|lia].
      * rewrite Ho in Qa, Qb by auto. apply (Ha a b); auto.
    + destruct (run_tokens _ _ _ _ H E r Hr) as [_ HT]. unfold tokT in HT. cbn [todo set_todo] in HT.
      assert (Sm : filter (ripe S') l = filter (ripe S) l).
      { apply filter_ext_in'. intros x Hx. pose proof (wsum_In p _ _ Hx) as T. rewrite HT in T.
        assert (Dq : forall q, q <> p -> duep S' q = duep S q) by (intros q N; rewrite (duep_new S' _ _ q Pr Nw), Ho by exact N; reflexivity).
        destruct x as [ev [q|q|q]|q oq|ev]; cbn [ripe]; try reflexivity; cbn [tokW] in T.
        - destruct (Nat.eqb_spec q p); [lia|]. apply Dq; assumption.
        - destruct (Nat.eqb_spec q p); [lia|]. destruct oq; [|reflexivity]. apply Dq; assumption. }
      assert (Rs : ripes S' = List.length (filter (ripe S) l)).
      { unfold ripes. destruct Td as [->|(o' & -> & Dn)]; [rewrite Sm; reflexivity|]. cbn [filter].
        assert (Z : ripe S' (WRun p o') = false) by (cbn [ripe]; destruct o'; [|reflexivity]; rewrite (duep_new S' _ _ p Pr Nw), Hp, Dn; reflexivity).
        rewrite Z, Sm. reflexivity. }
      rewrite Rs, Lg, app_length, map_length. unfold ripes. rewrite E. cbn [filter]. unfold told. destruct o as [v|t]; cbn [ripe].
      * unfold duep. rewrite Hr. destruct (pcode r); cbn [said due List.length]; cbn; lia.
      * cbn. lia.
    + exists (map (pair (now S)) (told (pcode r) o)). split; [exact Lg|]. apply Forall_map. apply Forall_forall. reflexivity.
  - destruct (cb_sum O w l S H E Hw) as (Lg & Ev & (new & Pr & Nw) & Td). cbv zeta in *. set (S' := work_off O w (set_todo l S)) in *.
    assert (Dq : forall q, duep S' q = duep S q) by (intros q; rewrite (duep_new S' _ _ q Pr Nw); reflexivity).
    assert (Rp : forall x, ripe S' x = ripe S x) by (intros [ev [q|q|q]|q [vq|tq]|ev]; cbn [ripe]; auto).
    split; [|split].
    + intros a b ra rb Nab Ra Rb Da Db. apply (Ha a b); auto; eapply proc_new; eauto.
    + rewrite Lg. unfold ripes. rewrite E. destruct Td as [->|(p & o & -> & X)].
      * rewrite (filter_ext _ _ Rp). cbn [filter]. destruct (ripe S w); cbn; lia.
      * cbn [filter]. rewrite (filter_ext _ _ Rp), Rp. destruct X as [(ev & ->)|(t & ->)].
        -- cbn [ripe]. destruct o; destruct (duep S p); cbn; lia.
        -- cbn [ripe]. destruct (ripe S w); cbn; lia.
    + exists []. rewrite app_nil_r. auto.
Qed.

(** ** One step *)

Lemma ripe_cbs S ev l : (forall p, cres p l <= 1) -> (forall p q, In (CResume p) l -> In (CResume q) l -> duep S p = true -> duep S q = true -> p = q) ->
  List.length (filter (ripe S) (map (WCb ev) l)) <= 1.
Proof.
  intros C D. induction l as [|c l IH]; cbn [map filter List.length]; [lia|].
  assert (C' : forall p, cres p l <= 1).
  { intros p. specialize (C p). change (c :: l) with ([c] ++ l) in C. rewrite cres_app in C. lia. }
  assert (IH' := IH C' (fun p q Hp Hq => D p q (or_intror Hp) (or_intror Hq))).
  destruct c as [p|p|p]; cbn [ripe]; try exact IH'. destruct (duep S p) eqn:Ep; [|exact IH'].
  assert (N : filter (ripe S) (map (WCb ev) l) = []).
  { destruct (filter (ripe S) (map (WCb ev) l)) as [|w rest] eqn:Ef; [reflexivity|exfalso].
    assert (Hw : In w (filter (ripe S) (map (WCb ev) l))) by (rewrite Ef; left; reflexivity).
    apply filter_In in Hw. destruct Hw as [Hw Rw]. apply in_map_iff in Hw. destruct Hw as (c & <- & Hc).
    destruct c as [q|q|q]; cbn [ripe] in Rw; try discriminate.
    assert (p = q) by (apply D; auto; [left; reflexivity|right; exact Hc]). subst q.
    specialize (C p). change (CResume p :: l) with ([CResume p] ++ l) in C. rewrite cres_app in C. apply cres_In in Hc.
    assert (cres p [CResume p] = 1) by (unfold cres; cbn; rewrite Nat.eqb_refl; reflexivity). lia. }
  rewrite N. cbn. lia.
Qed.

Lemma pop_sum O S S' : Inv S -> apart S -> todo S = [] -> sim_step O S = Some S' ->
  apart S' /\ log S' = log S /\ ripes S' <= 1 /\ prs S' = prs S.
Proof.
  intros H Ha Et. unfold sim_step. destruct (dead S); [discriminate|]. rewrite Et.
  destruct (pop_min (heap S)) as [[q h]|] eqn:Ep; [|discriminate]. cbv zeta. change (event_at (qev q) (set_now (qtime q) (set_queue (eid S) h S))) with (event_at (qev q) S).
  destruct (pop_min_ok _ _ _ Ep) as [Hq _]. destruct (i_heap _ H _ Hq) as (_ & e & He & _). rewrite He. intros [= <-].
  unfold exec_, set_event, upd_. cbn [fst evs set_now set_queue]. change (nth_error (evs S) (qev q)) with (event_at (qev q) S). rewrite He.
  set (S' := set_todo _ _). assert (Pr : prs S' = prs S) by reflexivity. split; [|split; [reflexivity|split; [|exact Pr]]].
  - intros a b ra rb. unfold proc_at. rewrite Pr. apply (Ha a b).
  - unfold ripes. cbn [todo set_todo S']. change (match ecbs e with Some l => l | None => [] end) with (cbs_of e). rewrite filter_app, app_length.
    change (filter (ripe S') [WEnd (qev q)]) with (@nil work). rewrite Nat.add_0_r. apply ripe_cbs.
    + intros p. pose proof (i_tok _ H p) as T. pose proof (esum_In p _ _ _ He) as T'. unfold tokE in T. destruct (Nat.ltb p (List.length (prs S))); lia.
    + intros a b Ra Rb Da Db. destruct (i_res _ H _ _ _ He Ra) as (ra & Pa & Ta). destruct (i_res _ H _ _ _ He Rb) as (rb & Pb & Tb).
      destruct (Nat.eq_dec a b) as [->|N]; [reflexivity|exfalso].
      unfold duep in Da, Db. change (proc_at a S') with (proc_at a S) in Da. change (proc_at b S') with (proc_at b S) in Db. rewrite Pa in Da. rewrite Pb in Db.
      apply (Ha a b ra rb N Pa Pb); [| |congruence]; intros Z; rewrite Z in *; discriminate.
Qed.

Definition Inv2 (S : sim) : Prop := Inv S /\ apart S.
Lemma step_ok2 O S S' : Inv2 S -> sim_step O S = Some S' -> Inv2 S'.
Proof.
  intros [H Ha] E. split; [eapply step_ok; eauto|]. destruct (todo S) as [|w l] eqn:Et; [eapply pop_sum; eauto|].
  unfold sim_step in E. destruct (dead S); [discriminate|]. rewrite Et in E. injection E as <-. apply work_apart; assumption.
Qed.
Lemma step_log O S S' : Inv2 S -> sim_step O S = Some S' -> exists new, log S' = log S ++ new /\ Forall (fun te => fst te = now S') new.
Proof.
  intros [H Ha] E. destruct (todo S) as [|w l] eqn:Et.
  - destruct (pop_sum _ _ _ H Ha Et E) as (_ & L & _). exists []. rewrite app_nil_r. auto.
  - unfold sim_step in E. destruct (dead S); [discriminate|]. rewrite Et in E. injection E as <-. rewrite work_clock by assumption. apply work_apart; assumption.
Qed.

(** ** The beginning *)

Lemma still_make_extras l : still (make_extras l).
Proof. induction l as [|n l IH]; cbn [make_extras]; still. apply still_spawn. reflexivity. Qed.
Lemma init_hush t s env : todo (sim_init t s env) = [] /\ dead (sim_init t s env) = None /\ log (sim_init t s env) = [] /\ now (sim_init t s env) = t /\
  Forall (fun r => due (pcode r) = None) (prs (sim_init t s env)).
Proof.
  unfold sim_init, exec_. set (S0 := MkSim _ _ _ _ _ _ _ _ _ _ _ _ _ _ _ _).
  assert (H : hush S0 (fst (initialise (dkeys (snames s)) env S0))).
  { generalize S0. change (still (initialise (dkeys (snames s)) env)). unfold initialise.
    apply still_bind; [apply still_spawn; reflexivity|intros _]. apply still_bind; [apply still_make_extras|intros _]. apply still_bind; [still|intros _].
    destruct env; still. apply still_spawn. reflexivity. }
  destruct H as [A B C D _ (new & E & F)]. rewrite A, B, C, D, E. repeat split; auto.
Qed.

(** Nothing is left to do of the last step. *)
Record rest (S : sim) : Prop := MkRest { re_inv : Inv2 S; re_todo : todo S = []; re_dead : dead S = None }.
Lemma init_rest t s env : rest (sim_init t s env).
Proof.
  destruct (init_hush t s env) as (A & B & _ & _ & F). constructor; auto. split; [apply init_ok|].
  intros p q r r' _ Hr _ D. rewrite Forall_forall in F. elim D. apply F. unfold proc_at in Hr. apply nth_error_In in Hr. exact Hr.
Qed.

Lemma drain_sum O S S' : drain O S S' -> Inv2 S ->
  Inv2 S' /\ now S' = now S /\ List.length (log S') + ripes S' <= List.length (log S) + ripes S /\
  (exists new, log S' = log S ++ new /\ Forall (fun te => fst te = now S) new) /\ (dead S' = None -> todo S' = []).
Proof.
  intros D. induction D as [S t Hd|S Hd Ht|S S1 S2 Hd Ht Hs D IH]; intros H.
  - split; [exact H|]. split; [reflexivity|]. split; [lia|]. split; [exists []; rewrite app_nil_r; auto|congruence].
  - split; [exact H|]. split; [reflexivity|]. split; [lia|]. split; [exists []; rewrite app_nil_r; auto|auto].
  - pose proof (step_ok2 _ _ _ H Hs) as H1. destruct (IH H1) as (I1 & I2 & I3 & (n2 & L2 & T2) & I5).
    destruct H as [H Ha]. unfold sim_step in Hs. rewrite Hd in Hs. destruct (todo S) as [|w l] eqn:Et; [congruence|]. injection Hs as <-.
    destruct (work_apart O w l S H Ha Et) as (_ & R & (n1 & L1 & T1)). pose proof (work_clock O w l S H Et) as C. cbv zeta in *.
    split; [exact I1|]. split; [congruence|]. split; [lia|]. split; [|exact I5]. exists (n1 ++ n2). rewrite L2, L1, app_assoc. split; [reflexivity|].
    apply Forall_app. split; [exact T1|]. rewrite C in T2. exact T2.
Qed.
Lemma tick_sum O S S' : Inv2 S -> tick O S S' ->
  Inv2 S' /\ (now S <= now S')%Z /\ (dead S' = None -> todo S' = []) /\ (log S' = log S \/ exists e, log S' = log S ++ [(now S', e)]).
Proof.
  intros H (S1 & Et & Hs & D). pose proof (step_ok2 _ _ _ H Hs) as H1. pose proof (step_clock _ _ _ (proj1 H) Hs) as C.
  destruct (pop_sum _ _ _ (proj1 H) (proj2 H) Et Hs) as (_ & L & R & _). destruct (drain_sum _ _ _ D H1) as (I1 & I2 & I3 & (new & L2 & T) & I5).
  split; [exact I1|]. split; [lia|]. split; [exact I5|]. rewrite L in L2. rewrite L2, L, app_length in I3.
  destruct new as [|[t e] [|y new]]; cbn in I3; [left; rewrite L2, app_nil_r; reflexivity| |lia].
  right. inversion_clear T as [|? ? Te _]. cbn in Te. exists e. rewrite L2, Te, I2. reflexivity.
Qed.

(** ** Runs *)

Lemma Inv2_now u S : Inv2 S -> todo S = [] -> (now S <= u)%Z -> (forall q, In q (heap S) -> (u <= qtime q)%Z) -> Inv2 (set_now u S).
Proof.
  intros [H Ha] Et L Hq. split; [|exact Ha]. constructor; try apply H; cbn [todo set_now heap now log]; rewrite ?Et.
  - intros q Hq'. split; [apply Hq; exact Hq'|]. apply (i_heap _ H _ Hq').
  - intros ev c [].
  - intros p r v t _ [].
  - destruct (i_log _ H) as [A B]. split; [exact A|]. eapply Forall_impl; [|exact B]. cbn. intros te [X Y]. split; [exact X|lia].
Qed.
Lemma Inv2_ss x S : Inv2 S -> Inv2 (set_ss x S).
Proof. intros [H Ha]. split; [apply Inv_ss; exact H|exact Ha]. Qed.
Lemma peek_min S t : peek S = Some t -> exists q, In q (heap S) /\ qtime q = t /\ forall x, In x (heap S) -> (t <= qtime x)%Z.
Proof.
  unfold peek. destruct (pop_min (heap S)) as [[q h]|] eqn:E; [|discriminate]. intros [= <-]. exists q.
  destruct (pop_min_ok _ _ _ E) as [Hq Hh]. split; [exact Hq|]. split; [reflexivity|].
  clear Hq Hh. revert q h E. induction (heap S) as [|y l IH]; intros q h E x []; cbn [pop_min] in E.
  - subst y. destruct (pop_min l) as [[m r]|] eqn:Em; [|injection E as <- _; lia].
    destruct (earlier x m) eqn:Ee; injection E as <- _; [lia|]. apply later_time in Ee. exact Ee.
  - destruct (pop_min l) as [[m r]|] eqn:Em; [|destruct l as [|a l]; [destruct H|cbn in Em; destruct (pop_min l) as [[? ?]|]; [destruct (earlier _ _)|]; discriminate]].
    pose proof (IH _ _ eq_refl x H) as L. destruct (earlier y m) eqn:Ee; injection E as <- _; [|exact L]. apply earlier_time in Ee. lia.
Qed.
Lemma peek_none S : peek S = None <-> heap S = [].
Proof.
  unfold peek. destruct (heap S) as [|a l]; [cbn; tauto|]. cbn [pop_min]. destruct (pop_min l) as [[? ?]|]; [destruct (earlier _ _)|]; split; discriminate.
Qed.

Lemma loop_sum O u S S' : loop O u S S' -> Inv2 S -> (now S <= u)%Z -> (todo S <> [] -> now S < u)%Z ->
  Inv2 S' /\ (now S <= now S' <= u)%Z /\
  (exists new, log S' = log S ++ new /\ Forall (fun te => (now S <= fst te < u)%Z) new) /\
  (dead S' = None -> todo S' = [] /\ forall q, In q (heap S') -> (u <= qtime q)%Z).
Proof.
  intros L. induction L as [S t Hd|S Hd Hr|S S1 S2 Hd Hr Hs L IH]; intros H Hn Ht.
  - split; [exact H|]. split; [lia|]. split; [exists []; rewrite app_nil_r; auto|congruence].
  - split; [exact H|]. split; [lia|]. split; [exists []; rewrite app_nil_r; auto|]. intros _. unfold reached, between in Hr.
    destruct (todo S); [|discriminate]. split; [reflexivity|]. cbn in Hr. intros q Hq. destruct (peek S) as [t|] eqn:Ep.
    + apply Z.leb_le in Hr. destruct (peek_min _ _ Ep) as (_ & _ & _ & M). specialize (M q Hq). lia.
    + apply peek_none in Ep. rewrite Ep in Hq. destruct Hq.
  - pose proof (step_ok2 _ _ _ H Hs) as H1. pose proof (step_clock _ _ _ (proj1 H) Hs) as C. destruct (step_log _ _ _ H Hs) as (n1 & L1 & T1).
    assert (B : (now S1 < u)%Z).
    { unfold reached, between in Hr. destruct (todo S) as [|w l] eqn:Et.
      - cbn in Hr. unfold sim_step in Hs. rewrite Hd, Et in Hs. unfold peek in Hr. destruct (pop_min (heap S)) as [[q h]|] eqn:Ep; [|discriminate].
        apply Z.leb_gt in Hr. cbv zeta in Hs. destruct (event_at _ _); injection Hs as <-; [|exact Hr]. cbn [now set_todo].
        unfold exec_, set_event, upd_. cbn [fst]. destruct (nth_error _ _); exact Hr.
      - unfold sim_step in Hs. rewrite Hd, Et in Hs. injection Hs as <-. rewrite (work_clock O w l S (proj1 H) Et). apply Ht. discriminate. }
    destruct (IH H1) as (I1 & I2 & (n2 & L2 & T2) & I4); [lia|auto|].
    split; [exact I1|]. split; [lia|]. split; [|exact I4]. exists (n1 ++ n2). rewrite L2, L1, app_assoc. split; [reflexivity|]. apply Forall_app. split.
    + eapply Forall_impl; [|exact T1]. cbn. intros te ->. lia.
    + eapply Forall_impl; [|exact T2]. cbn. intros te X. lia.
Qed.

Lemma compile_end_sum O S S' c : compile_end O S = (S', c) -> exists x, S' = set_ss x S.
Proof.
  unfold compile_end. assert (E : S = set_ss (ss S) S) by (destruct S; reflexivity).
  destruct (compile_now O (ss S)) as [[[[n again] rs]|]|e]; intros [= <- _]; eauto.
Qed.
Lemma at_end_sum O S S' c : at_end O S = (S', c) -> exists x, S' = set_ss x S.
Proof.
  unfold at_end. assert (E : S = set_ss (ss S) S) by (destruct S; reflexivity). destruct (peek S); [intros [= <- _]; eauto|apply compile_end_sum].
Qed.

Theorem run_sum_ O u S S' c : rest S -> run O u S (S', c) ->
  ((u <= now S)%Z /\ S' = S /\ c = Raises (TExn EValue)) \/
  ((now S < u)%Z /\ (now S <= now S' <= u)%Z /\
   (exists new, log S' = log S ++ new /\ Forall (fun te => (now S <= fst te < u)%Z) new) /\
   (c = Returns -> rest S' /\ now S' = u /\ forall q, In q (heap S') -> (u <= qtime q)%Z)).
Proof.
  intros [H Et Hd] R. inversion R as [L E|S1 t L Lp D E|S1 L Lp D E].
  - left. auto.
  - subst. right. destruct (loop_sum _ _ _ _ Lp H) as (I1 & I2 & I3 & I4); [lia|congruence|]. split; [exact L|]. split; [exact I2|]. split; [exact I3|discriminate].
  - right. destruct (loop_sum _ _ _ _ Lp H) as (I1 & I2 & I3 & I4); [lia|congruence|]. destruct (I4 D) as [T4 Q4].
    destruct (at_end_sum _ _ _ _ E) as (x & ->). split; [exact L|]. cbn [now set_ss set_now log heap]. split; [lia|]. split; [exact I3|].
    intros _. split; [|auto]. constructor; cbn; auto. apply Inv2_ss, Inv2_now; auto; lia.
Qed.

Lemma step_sum_ O l S r : step_ O l S r -> rest S -> snd r = Returns -> rest (fst (fst r)).
Proof.
  intros H. induction H as [S Et Hd Ep|S S1 t Hd T D|S S1 e Hd T D N|S S1 S2 t Hd T D N E|S S1 S2 r Hd T D N E H IH]; cbn [fst snd]; intros R; try discriminate.
  - intros _. destruct (tick_sum _ _ _ (re_inv _ R) T) as (I1 & _ & I3 & _). constructor; auto.
  - apply IH. destruct (tick_sum _ _ _ (re_inv _ R) T) as (I1 & _ & I3 & _). destruct (at_end_sum _ _ _ _ E) as (x & ->). constructor; cbn; auto. apply Inv2_ss. exact I1.
Qed.
Theorem session_rest O t s env S l : session O t s env S l -> rest S.
Proof.
  intros H. induction H as [|u S l S' H IH R|S l S' l' H IH R]; [apply init_rest| |].
  - destruct (run_sum_ _ _ _ _ _ IH R) as [(_ & _ & ?)|(_ & _ & _ & X)]; [discriminate|]. apply X. reflexivity.
  - apply (step_sum_ _ _ _ _ R IH eq_refl).
Qed.

(** ** A run in pieces *)

Lemma loop_fun O u S S1 : loop O u S S1 -> forall S2, loop O u S S2 -> S1 = S2.
Proof.
  intros H. induction H as [S t Hd|S Hd Hr|S S1 S2 Hd Hr Hs L IH]; intros S3 H3; inversion H3; subst; try congruence.
  apply IH. replace S1 with S4 by congruence. assumption.
Qed.
Theorem run_fun O u S r1 r2 : run O u S r1 -> run O u S r2 -> r1 = r2.
Proof.
  intros H1 H2. destruct H1 as [L1|S1 t1 L1 P1 D1|S1 L1 P1 D1]; destruct H2 as [L2|S2 t2 L2 P2 D2|S2 L2 P2 D2]; try lia; try reflexivity;
    pose proof (loop_fun _ _ _ _ P1 _ P2) as E; subst S2; congruence.
Qed.
Lemma reached_mono u1 u2 S : (u1 <= u2)%Z -> reached u1 S = false -> reached u2 S = false.
Proof.
  intros L. unfold reached. destruct (between S); cbn; [|auto]. destruct (peek S) as [t|]; [|auto]. intros H. apply Z.leb_gt in H. apply Z.leb_gt. lia.
Qed.
Lemma loop_split O u1 u2 S S1 : (u1 <= u2)%Z -> loop O u1 S S1 -> forall S2, loop O u2 S S2 <-> loop O u2 S1 S2.
Proof.
  intros L H. induction H as [S t Hd|S Hd Hr|S S1 S2 Hd Hr Hs Lp IH]; intros S3; [tauto|tauto|]. rewrite <- IH. split; intros H.
  - inversion H; subst; try congruence. apply (reached_mono u1 u2) in Hr; [congruence|exact L].
  - eapply loop_step; eauto. eapply reached_mono; eauto.
Qed.
Lemma loop_alive O u S S' : loop O u S S' -> dead S' = None -> reached u S' = true.
Proof. intros H. induction H; auto; congruence. Qed.
Lemma step_now O u S : todo S = [] -> peek S <> None -> sim_step O (set_now u S) = sim_step O S.
Proof.
  intros Et Ep. unfold sim_step. cbn [dead todo set_now heap]. destruct (dead S); [reflexivity|]. rewrite Et. unfold peek in Ep. destruct (pop_min (heap S)) as [[q h]|]; [reflexivity|congruence].
Qed.
Lemma loop_now O u v S S2 : todo S = [] -> dead S = None -> peek S <> None \/ reached u S = true ->
  loop O u S S2 -> exists S3, loop O u (set_now v S) S3 /\ dead S3 = dead S2 /\ (S3 = S2 \/ dead S2 = None /\ S2 = S /\ S3 = set_now v S).
Proof.
  intros Et Hd Ep H. inversion H as [S' t D|S' D R|S' S1 S3 D R St L]; subst; try congruence.
  - exists (set_now v S2). split; [apply loop_stop; assumption|]. split; [reflexivity|auto].
  - exists S2. split; [|auto]. destruct Ep as [Ep|Ep]; [|congruence]. eapply loop_step; [exact Hd|exact R| |exact L]. rewrite step_now; assumption.
Qed.
Lemma loop_now' O u v S S2 : todo S = [] -> dead S = None -> peek S <> None \/ reached u S = true ->
  loop O u (set_now v S) S2 -> exists S3, loop O u S S3 /\ dead S3 = dead S2 /\ (S3 = S2 \/ dead S2 = None /\ S3 = S /\ S2 = set_now v S).
Proof.
  intros Et Hd Ep H. inversion H as [S' t D|S' D R|S' S1 S3 D R St L]; subst; try (cbn in *; congruence).
  - exists S. split; [apply loop_stop; assumption|]. split; [reflexivity|auto].
  - exists S2. split; [|auto]. destruct Ep as [Ep|Ep]; [|change (reached u (set_now v S)) with (reached u S) in R; congruence].
    eapply loop_step; [exact Hd|exact R| |exact L]. rewrite step_now in St; assumption.
Qed.
Lemma reached_or u1 u2 S : reached u1 S = true -> todo S = [] /\ (peek S <> None \/ reached u2 S = true).
Proof.
  unfold reached, between. destruct (todo S); [|discriminate]. cbn. intros _. split; [reflexivity|]. destruct (peek S); [left; discriminate|auto].
Qed.

(** Running up to [u1] and then up to [u2] is the same as running up to [u2]. *)
Theorem run_pieces O u1 u2 S S1 : (u1 < u2)%Z -> run O u1 S (S1, Returns) -> peek S1 <> None \/ qcompile (sp (ss S1)) = false ->
  forall r, run O u2 S1 r <-> run O u2 S r.
Proof.
  intros L R Hc. inversion R as [|S0 t L0 Lp D E|S0 L0 Lp D E]; subst; try discriminate.
  assert (E1 : S1 = set_now u1 S0).
  { unfold at_end in E. change (peek (set_now u1 S0)) with (peek S0) in E. destruct (peek S0) as [t|] eqn:Ep; [injection E as <-; reflexivity|].
    destruct (at_end_sum O (set_now u1 S0) S1 Returns) as (x & X). { unfold at_end. change (peek (set_now u1 S0)) with (peek S0). rewrite Ep. exact E. }
    destruct Hc as [Hc|Hc]; [rewrite X in Hc; change (peek S0 <> None) in Hc; congruence|].
    unfold compile_end in E. destruct (compile_now O (ss (set_now u1 S0))) as [[[[n again] rs]|]|e] eqn:Ec; [|injection E as <-; reflexivity|discriminate].
    injection E as <-. cbn [ss set_ss sp set_order set_rules] in Hc. cbn [ss set_now] in Ec. unfold compile_now in Ec. unfold set_order, set_rules in Hc. cbn in Hc. rewrite Hc in Ec. discriminate. }
  subst S1. pose proof (loop_alive _ _ _ _ Lp D) as Rd. destruct (reached_or _ u2 _ Rd) as [Et Ep].
  assert (Sp : forall S2, loop O u2 S S2 <-> loop O u2 S0 S2) by (apply (loop_split O u1 u2); [lia|exact Lp]).
  intros r. split; intros H.
  - destruct H as [Lt|S2 t Lt P2 D2|S2 Lt P2 D2].
    + cbn in Lt. lia.
    + destruct (loop_now' _ _ _ _ _ Et D Ep P2) as (S3 & L3 & D3 & [->|(Y & _)]); [|congruence]. apply run_raises; [lia|apply Sp; exact L3|exact D2].
    + destruct (loop_now' _ _ _ _ _ Et D Ep P2) as (S3 & L3 & D3 & X).
      replace (set_now u2 S2) with (set_now u2 S3) by (destruct X as [->|(_ & -> & ->)]; reflexivity).
      apply run_returns; [lia|apply Sp; exact L3|congruence].
  - destruct H as [Lt|S2 t Lt P2 D2|S2 Lt P2 D2].
    + lia.
    + apply Sp in P2. destruct (loop_now _ _ u1 _ _ Et D Ep P2) as (S3 & L3 & D3 & [->|(Y & _)]); [|congruence]. apply run_raises; [exact L|exact L3|exact D2].
    + apply Sp in P2. destruct (loop_now _ _ u1 _ _ Et D Ep P2) as (S3 & L3 & D3 & X).
      replace (set_now u2 S2) with (set_now u2 S3) by (destruct X as [->|(_ & -> & ->)]; reflexivity).
      apply run_returns; [exact L|exact L3|congruence].
Qed.
(** An exception comes at the same place however long the run was to be. *)
Theorem run_fails O u1 u2 S S1 t : (u1 <= u2)%Z -> (now S < u1)%Z -> run O u1 S (S1, Raises t) -> dead S1 = Some t -> run O u2 S (S1, Raises t).
Proof.
  intros L N R Dt. inversion R as [L0|S0 t0 L0 Lp D E|S0 L0 Lp D E]; subst; [lia| |].
  - apply run_raises; [lia| |exact D]. apply (loop_split O u1 u2 S S1 L Lp). eapply loop_dead. exact D.
  - destruct (at_end_sum _ _ _ _ E) as (x & ->). cbn in Dt. congruence.
Qed.
(** A simulation that has come to its end: only the clock moves. *)
Theorem run_idle O u S : rest S -> peek S = None -> qcompile (sp (ss S)) = false -> (now S < u)%Z -> run O u S (set_now u S, Returns).
Proof.
  intros [_ Et Hd] Ep Hq L. replace (set_now u S, Returns) with (at_end O (set_now u S)).
  - apply run_returns; [exact L| |exact Hd]. apply loop_stop; [exact Hd|]. unfold reached, between. rewrite Et, Ep. reflexivity.
  - unfold at_end, compile_end, compile_now. change (peek (set_now u S)) with (peek S). rewrite Ep. cbn [ss set_now]. rewrite Hq. reflexivity.
Qed.

(** ** Steps *)

Lemma event_eqb_eq a b : event_eqb a b = true <-> a = b.
Proof.
  unfold event_eqb. rewrite !Bool.andb_true_iff, Z.eqb_eq, String.eqb_eq. destruct a as [t p w], b as [t' p' w']. cbn.
  assert (W : what_eqb w w' = true <-> w = w').
  { destruct w, w'; cbn; try (split; congruence); rewrite ?Bool.andb_true_iff, ?Bool.eqb_true_iff, ?String.eqb_eq; split; try congruence; try (intros [-> ->]; reflexivity). intros [= -> ->]. auto. }
  rewrite W. split; [intros [[-> ->] ->]; reflexivity|intros [= -> -> ->]; auto].
Qed.
Lemma trace_tick O S S' : Inv2 S -> tick O S S' -> trace_of S' = trace_of S \/ exists e, trace_of S' = trace_of S ++ [e].
Proof.
  intros H T. destruct (tick_sum _ _ _ H T) as (_ & _ & _ & [L|(e & L)]); unfold trace_of; rewrite L; [auto|].
  rewrite map_app, filter_app. cbn. destruct (known e); [right; eauto|left; apply app_nil_r].
Qed.
Lemma current_snoc S e l : trace_of S = l ++ [e] -> current_event S = Some e.
Proof. unfold current_event. intros ->. rewrite map_app. cbn. apply last_last. Qed.
Lemma current_nil S : trace_of S = [] -> current_event S = None.
Proof. unfold current_event. intros ->. reflexivity. Qed.
Lemma news_spec l S e : news l S = Some e <-> current_event S = Some e /\ l <> Some e.
Proof.
  unfold news. destruct (current_event S) as [x|]; [|split; [discriminate|intros [? _]; discriminate]]. destruct l as [y|].
  - destruct (event_eqb x y) eqn:E.
    + apply event_eqb_eq in E. subst y. split; [discriminate|]. intros [[= ->] N]. congruence.
    + assert (N : x <> y) by (intros ->; rewrite (proj2 (event_eqb_eq y y) eq_refl) in E; discriminate).
      split; [intros [= ->]; split; congruence|intros [[= ->] _]; reflexivity].
  - split; [intros [= ->]; split; congruence|intros [[= ->] _]; reflexivity].
Qed.
Lemma last_cons {A} (x : A) l a : last (x :: l) a = last l x.
Proof. revert x a. induction l as [|y l IH]; intros x a; [reflexivity|]. change (last (y :: l) a = last (y :: l) x). rewrite !IH. reflexivity. Qed.
Lemma squashed_app a l1 l1' l2 l2' : squashed a l1 l1' -> squashed (last (map Some l1) a) l2 l2' -> squashed a (l1 ++ l2) (l1' ++ l2').
Proof.
  intros H. induction H as [a|e l l' H IH|a e l l' N H IH]; intros H2; [exact H2| |].
  - cbn [app]. constructor. apply IH. cbn [map] in H2. rewrite last_cons in H2. exact H2.
  - cbn [app]. constructor; [exact N|]. apply IH. cbn [map] in H2. rewrite last_cons in H2. exact H2.
Qed.

(** A step shows the next event that is different from the last one. *)
Theorem step_trace O l S r : step_ O l S r -> rest S -> current_event S = l ->
  exists new, trace_of (fst (fst r)) = trace_of S ++ new /\
    match snd r with
    | Returns => exists e, snd (fst r) = Some e /\ squashed l new [e] /\ current_event (fst (fst r)) = Some e
    | EmptySchedule => snd (fst r) = l /\ squashed l new [] /\ peek (fst (fst r)) = None
    | Raises _ => snd (fst r) = l
    end.
Proof.
  intros H. induction H as [S Et Hd Ep|S S1 t Hd T D|S S1 e Hd T D N|S S1 S2 t Hd T D N E|S S1 S2 r Hd T D N E H IH]; cbn [fst snd]; intros R C.
  - exists []. rewrite app_nil_r. repeat split; auto. constructor.
  - destruct (trace_tick _ _ _ (re_inv _ R) T) as [X|(x & X)]; [exists []; rewrite app_nil_r|exists [x]]; auto.
  - apply news_spec in N. destruct N as [N1 N2]. destruct (trace_tick _ _ _ (re_inv _ R) T) as [X|(x & X)].
    + unfold current_event in *. rewrite X in N1. congruence.
    + rewrite (current_snoc _ _ _ X) in N1. injection N1 as ->. exists [e]. split; [exact X|]. exists e. repeat split; [|apply (current_snoc _ _ _ X)].
      constructor; [exact N2|constructor].
  - destruct (at_end_sum _ _ _ _ E) as (y & ->). change (trace_of (set_ss y S1)) with (trace_of S1).
    destruct (trace_tick _ _ _ (re_inv _ R) T) as [X|(x & X)]; [exists []; rewrite app_nil_r|exists [x]]; auto.
  - destruct (at_end_sum _ _ _ _ E) as (y & ->). destruct (tick_sum _ _ _ (re_inv _ R) T) as (I1 & _ & I3 & _).
    assert (R1 : rest (set_ss y S1)) by (constructor; cbn; auto; apply Inv2_ss; exact I1).
    destruct (trace_tick _ _ _ (re_inv _ R) T) as [X|(x & X)].
    + assert (C1 : current_event (set_ss y S1) = l) by (unfold current_event in *; change (trace_of (set_ss y S1)) with (trace_of S1); rewrite X; exact C).
      destruct (IH R1 C1) as (new & Y & Z). exists new. rewrite Y. change (trace_of (set_ss y S1)) with (trace_of S1). rewrite X. auto.
    + pose proof (current_snoc _ _ _ X) as C1. assert (Lx : l = Some x).
      { destruct l as [e0|]; [|exfalso; assert (G : news None S1 = Some x) by (apply news_spec; split; [exact C1|discriminate]); congruence].
        destruct (event_eqb x e0) eqn:Q; [apply event_eqb_eq in Q; congruence|].
        assert (G : news (Some e0) S1 = Some x); [|congruence]. apply news_spec. split; [exact C1|]. intros [= ->]. rewrite (proj2 (event_eqb_eq x x) eq_refl) in Q. discriminate. }
      rewrite <- Lx in C1. destruct (IH R1 C1) as (new & Y & Z). exists (x :: new). rewrite Y. change (trace_of (set_ss y S1)) with (trace_of S1). rewrite X, <- app_assoc.
      split; [reflexivity|]. rewrite Lx in *. destruct (snd r).
      * destruct Z as (e & Z1 & Z2 & Z3). exists e. repeat split; auto. constructor. exact Z2.
      * exact Z.
      * destruct Z as (Z1 & Z2 & Z3). repeat split; auto. constructor. exact Z2.
Qed.

Theorem steps_trace O n l S es r : steps_ O n l S es r -> rest S -> current_event S = l ->
  match snd r with
  | Returns => exists new, trace_of (fst (fst r)) = trace_of S ++ new /\ squashed l new es /\ List.length es = n
  | EmptySchedule => (exists new, trace_of (fst (fst r)) = trace_of S ++ new /\ squashed l new es) /\ List.length es < n /\ peek (fst (fst r)) = None
  | Raises _ => exists new new', trace_of (fst (fst r)) = trace_of S ++ new ++ new' /\ squashed l new es /\ List.length es < n
  end.
Proof.
  intros H. induction H as [l S|n l S S1 e es r Hs H IH|n l S S1 l1 c Hs N]; cbn [fst snd]; intros R C.
  - exists []. rewrite app_nil_r. repeat split; auto. constructor.
  - destruct (step_trace _ _ _ _ Hs R C) as (new & X & e' & [= <-] & Sq & C1). cbn [fst snd] in *.
    pose proof (step_sum_ _ _ _ _ Hs R eq_refl) as R1. cbn [fst] in R1. specialize (IH R1 C1).
    assert (La : last (map Some new) l = Some e).
    { destruct new as [|x new']; [inversion Sq|]. destruct (exists_last (l := x :: new')) as (l0 & a & Ea); [discriminate|].
      rewrite Ea in *. rewrite app_assoc in X. rewrite (current_snoc _ _ _ X) in C1. rewrite map_app. cbn. rewrite last_last. exact C1. }
    assert (Sq' : forall new2 es2, squashed (Some e) new2 es2 -> squashed l (new ++ new2) (e :: es2)).
    { intros new2 es2 K. change (e :: es2) with ([e] ++ es2). apply squashed_app; [exact Sq|]. rewrite La. exact K. }
    destruct (snd r).
    + destruct IH as (new2 & X2 & Sq2 & Ln). exists (new ++ new2). rewrite X2, X, app_assoc. repeat split; auto. cbn. congruence.
    + destruct IH as (new2 & new3 & X2 & Sq2 & Ln). exists (new ++ new2), new3. rewrite X2, X, !app_assoc. repeat split; auto. cbn. lia.
    + destruct IH as ((new2 & X2 & Sq2) & Ln & P). repeat split; auto; [|cbn; lia]. exists (new ++ new2). rewrite X2, X, app_assoc. auto.
  - destruct (step_trace _ _ _ _ Hs R C) as (new & X & Y). cbn [fst snd] in *. destruct c; [congruence| |].
    + exists [], new. repeat split; auto; [constructor|cbn; lia].
    + destruct Y as (_ & Y & P). repeat split; auto; [eauto|cbn; lia].
Qed.

(** ** After calls of run() and step() *)

Theorem session_pieces O t s env S l u1 u2 S1 : session O t s env S l -> (u1 < u2)%Z -> run O u1 S (S1, Returns) ->
  heap S1 <> [] \/ qcompile (sp (ss S1)) = false -> forall r, run O u2 S1 r <-> run O u2 S r.
Proof.
  intros _ L R H. apply (run_pieces O u1 u2 S S1 L R). destruct H as [H|H]; [left|auto]. intros P. apply peek_none in P. contradiction.
Qed.
Theorem run_fails' O u1 u2 S S1 t : (now S < u1 <= u2)%Z -> run O u1 S (S1, Raises t) -> dead S1 = Some t -> run O u2 S (S1, Raises t).
Proof. intros [L1 L2]. apply run_fails; assumption. Qed.
Theorem session_idle O t s env S l u : session O t s env S l -> heap S = [] -> qcompile (sp (ss S)) = false -> (now S < u)%Z -> run O u S (set_now u S, Returns).
Proof. intros H P. apply run_idle; [eapply session_rest; exact H|apply peek_none; exact P]. Qed.
Lemma run_Inv O u S S' c : rest S -> run O u S (S', c) -> Inv S'.
Proof.
  intros [H Et Hd] R. inversion R as [L E|S1 t L Lp D E|S1 L Lp D E]; subst; [apply H| |].
  - apply (loop_sum _ _ _ _ Lp H); [lia|congruence].
  - destruct (loop_sum _ _ _ _ Lp H) as (I1 & I2 & I3 & I4); [lia|congruence|]. destruct (I4 D) as [T4 Q4].
    destruct (at_end_sum _ _ _ _ E) as (x & ->). apply Inv2_ss, Inv2_now; auto; lia.
Qed.
Theorem session_run_spec O t s env S l u S' c : session O t s env S l -> run O u S (S', c) ->
  ((u <= now S)%Z /\ S' = S /\ c = Raises (TExn EValue)) \/
  ((now S < u)%Z /\ (exists new, log S' = log S ++ new /\ Forall (fun te => (now S <= fst te < u)%Z /\ fst te = etime (snd te)) new) /\
   (c = Returns -> show_time S' = u /\ forall q, In q (heap S') -> (u <= qtime q)%Z)).
Proof.
  intros H R. apply session_rest in H. pose proof (run_Inv _ _ _ _ _ H R) as H'. destruct (run_sum_ _ _ _ _ _ H R) as [X|(A & _ & (new & L & F) & B)]; [auto|].
  right. split; [exact A|]. split; [|intros C; destruct (B C) as (_ & X & Y); auto]. exists new. split; [exact L|].
  destruct (i_log _ H') as [_ G]. rewrite L in G. apply Forall_app in G. destruct G as [_ G]. rewrite Forall_forall in *. intros te Hte. split; [apply F; exact Hte|apply G; exact Hte].
Qed.
Theorem steps_from_start O t s env n es S l c : steps_ O n None (sim_init t s env) es (S, l, c) ->
  match c with
  | Returns => squashed None (trace_of S) es /\ List.length es = n
  | EmptySchedule => squashed None (trace_of S) es /\ (List.length es < n)%nat /\ heap S = []
  | Raises _ => exists tr tr', trace_of S = tr ++ tr' /\ squashed None tr es /\ (List.length es < n)%nat
  end.
Proof.
  intros H. assert (E : trace_of (sim_init t s env) = []) by (unfold trace_of; destruct (init_hush t s env) as (_ & _ & -> & _); reflexivity).
  pose proof (steps_trace _ _ _ _ _ _ H (init_rest _ _ _) (current_nil _ E)) as X. cbn [fst snd] in X. rewrite E in X. destruct c.
  - destruct X as (new & -> & X). exact X.
  - destruct X as (new & new' & X & Y). cbn in X. exists new, new'. auto.
  - destruct X as ((new & -> & X) & L & P). repeat split; auto. apply peek_none. exact P.
Qed.
Theorem session_step_spec O t s env S l S' l' c : session O t s env S l -> current_event S = l -> step_ O l S (S', l', c) ->
  exists new, trace_of S' = trace_of S ++ new /\
    match c with
    | Returns => exists e, l' = Some e /\ squashed l new [e] /\ current_event S' = l'
    | EmptySchedule => l' = l /\ squashed l new [] /\ heap S' = []
    | Raises _ => l' = l
    end.
Proof.
  intros H C K. apply session_rest in H. destruct (step_trace _ _ _ _ K H C) as (new & X & Y). cbn [fst snd] in *. exists new. split; [exact X|]. destruct c.
  - destruct Y as (e & -> & Y1 & Y2). exists e. auto.
  - exact Y.
  - destruct Y as (Y1 & Y2 & Y3). repeat split; auto. apply peek_none. exact Y3.
Qed.
