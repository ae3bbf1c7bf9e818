(** A process that waits for its time: who can interrupt it, and that it goes on when its time has come. *)
From Coq Require Import Lia.
From Verif Require Import Base BaseFacts Chunks DecMem Buffers BufferFacts Productions ProdSpec Sim SimSpec SimFacts SerialFacts StoryFacts InterruptFacts Run RunSpec RunFacts KeepSpec.
Local Open Scope string_scope.
Local Open Scope list_scope.
Local Open Scope nat_scope.

(** ** What the code of a process interrupts and starts *)
Section Mild.
Variable P : nat -> Prop.
Variable X : dict nat.

(** Some process of [P] is being interrupted. *)
Definition pend (S : sim) : Prop := exists ev x q, event_at ev S = Some x /\ erole x = RInt q /\ P q /\ ecbs x <> None.
Record mild (S S' : sim) : Prop := MkMild {
  m_pend : pend S' -> pend S;
  m_new : exists new, prs S' = prs S ++ new /\ Forall (fun r => due (pcode r) = None /\ forall m, pkind r <> Some (GExtra m)) new;
  m_heap : incl (heap S) (heap S');
  m_cbs : forall ev x c, event_at ev S = Some x -> In c (cbs_of x) -> exists x', event_at ev S' = Some x' /\ In c (cbs_of x');
  m_ext : extras S' = extras S;
  m_todo_ : todo S' = todo S }.
Lemma mild_same S S' : evs S' = evs S -> prs S' = prs S -> heap S' = heap S -> extras S' = extras S -> todo S' = todo S -> mild S S'.
Proof.
  intros E1 E2 E3 E4 E5. constructor; auto.
  - intros (ev & x & q & H). exists ev, x, q. unfold event_at in *. rewrite <- E1. exact H.
  - exists []. rewrite app_nil_r. auto.
  - rewrite E3. apply incl_refl.
  - intros ev x c Hx Hc. exists x. unfold event_at in *. rewrite E1. auto.
Qed.
Lemma mild_refl S : mild S S.
Proof. apply mild_same; reflexivity. Qed.
Lemma mild_trans S1 S2 S3 : mild S1 S2 -> mild S2 S3 -> mild S1 S3.
Proof.
  intros [a1 (n1 & a2 & a3) a4 a5 a6 a7] [b1 (n2 & b2 & b3) b4 b5 b6 b7]. constructor; try congruence; auto.
  - exists (n1 ++ n2). rewrite b2, a2, app_assoc. split; [reflexivity|]. apply Forall_app. auto.
  - eapply incl_tran; eassumption.
  - intros ev x c Hx Hc. destruct (a5 _ _ _ Hx Hc) as (x1 & H1 & H2). exact (b5 _ _ _ H1 H2).
Qed.

Definition mildm {A} (m : M A) : Prop := forall S, extras S = X -> mild S (fst (m S)).
Lemma mm_ret {A} (a : A) : mildm (ret a).
Proof. intros S _. apply mild_refl. Qed.
Lemma mm_throw {A} t : mildm (@throw A t).
Proof. intros S _. apply mild_refl. Qed.
Lemma mm_get : mildm get.
Proof. intros S _. apply mild_refl. Qed.
Lemma mm_bind {A B} (m : M A) (k : A -> M B) : mildm m -> (forall a, mildm (k a)) -> mildm (bind m k).
Proof.
  intros Hm Hk S E. unfold bind. pose proof (Hm S E) as H. destruct (m S) as [S1 [a|t]]; cbn [fst] in H |- *; [|exact H].
  eapply mild_trans; [exact H|apply Hk]. rewrite (m_ext _ _ H). exact E.
Qed.
Lemma mm_getk {A} (k : sim -> M A) : (forall S, extras S = X -> mildm (k S)) -> mildm (bind get k).
Proof. intros H S E. unfold bind, get. apply H; exact E. Qed.
Lemma mm_upd f : (forall S, evs (f S) = evs S) -> (forall S, prs (f S) = prs S) -> (forall S, heap (f S) = heap S) -> (forall S, extras (f S) = extras S) -> (forall S, todo (f S) = todo S) -> mildm (upd_ f).
Proof. intros H1 H2 H3 H4 H5 S _. apply mild_same; cbn [upd_ fst]; auto. Qed.
Lemma mm_mk r v d c : (forall q, r = RInt q -> ~ P q) -> mildm (mk_event r v d c).
Proof.
  intros Hr S _. unfold mk_event. cbn [fst]. constructor; try reflexivity.
  - intros (ev & x & q & Hx & Er & Hp & Hc). unfold event_at in Hx. cbn [evs set_evs] in Hx. apply nth_snoc in Hx. destruct Hx as [Hx|[-> ->]]; [exists ev, x, q; auto|]. cbn [erole] in Er. elim (Hr q Er Hp).
  - exists []. rewrite app_nil_r. auto.
  - apply incl_refl.
  - intros ev x c0 Hx Hc. exists x. split; [|exact Hc]. unfold event_at in *. cbn [evs set_evs]. apply nth_snoc_old. exact Hx.
Qed.
Lemma mm_new r : (forall q, r <> RInt q) -> mildm (new_event r).
Proof. intros H. apply mm_mk. intros q E. elim (H q E). Qed.
Lemma mm_schedule p d ev : mildm (schedule p d ev).
Proof.
  intros S _. unfold schedule, upd_. cbn [fst]. constructor; try reflexivity; auto.
  - exists []. rewrite app_nil_r. auto.
  - intros q Hq. cbn [heap set_queue]. apply in_or_app. left. exact Hq.
  - intros ev' x c Hx Hc. exists x. auto.
Qed.
Lemma mm_set_event ev f : (forall e, erole (f e) = erole e /\ (ecbs (f e) <> None -> ecbs e <> None) /\ incl (cbs_of e) (cbs_of (f e))) -> mildm (set_event ev f).
Proof.
  intros Hf S _. unfold set_event, upd_. cbn [fst]. destruct (nth_error (evs S) ev) as [e|] eqn:He; [|apply mild_refl]. destruct (Hf e) as (F1 & F2 & F3).
  constructor; try reflexivity.
  - intros (i & x & q & Hx & Er & Hp & Hc). unfold event_at in Hx. cbn [evs set_evs] in Hx. destruct (Nat.eq_dec i ev) as [->|N].
    + rewrite (upd_same _ _ _ _ He) in Hx. injection Hx as <-. exists ev, e, q. rewrite F1 in Er. auto.
    + rewrite upd_other in Hx by exact N. exists i, x, q. auto.
  - exists []. rewrite app_nil_r. auto.
  - apply incl_refl.
  - intros i x c Hx Hc. unfold event_at in *. cbn [evs set_evs]. destruct (Nat.eq_dec i ev) as [->|N].
    + rewrite (upd_same _ _ _ _ He). exists (f e). split; [reflexivity|]. apply F3. assert (x = e) by congruence. subst x. exact Hc.
    + rewrite upd_other by exact N. eauto.
Qed.

Ltac ev_ := intros []; cbn; split; [reflexivity|split; [auto|apply incl_refl]].
Lemma mm_succeed ev : mildm (succeed ev).
Proof. unfold succeed. apply mm_getk. intros S _. destruct (trig S ev); [apply mm_throw|]. apply mm_bind; [apply mm_set_event; ev_|intros _; apply mm_schedule]. Qed.
Lemma mm_timeout d : mildm (timeout d).
Proof.
  unfold timeout. destruct (Z.ltb d 0); [apply mm_throw|]. apply mm_getk. intros S _. apply mm_bind; [apply mm_mk; discriminate|intros ev].
  apply mm_bind; [apply mm_schedule|intros _; apply mm_ret].
Qed.
Lemma mm_spawn c : due c = None -> (forall m, kind_of c <> Some (GExtra m)) -> mildm (spawn c).
Proof.
  intros H1 H2. unfold spawn. apply mm_getk. intros S _. apply mm_bind; [apply mm_new; discriminate|intros own]. apply mm_bind; [apply mm_mk; discriminate|intros init].
  apply mm_bind; [|intros _; apply mm_bind; [apply mm_schedule|intros _; apply mm_ret]].
  intros S1 _. unfold upd_. cbn [fst]. constructor; try reflexivity; auto; [|apply incl_refl|intros ev x c0 Hx Hc; exists x; auto].
  eexists. split; [reflexivity|]. repeat constructor; auto.
Qed.
Lemma mm_interrupt a q : ~ P q -> mildm (interrupt a q).
Proof.
  intros H. unfold interrupt. apply mm_getk. intros S _. destruct (ended q S); [apply mm_throw|]. destruct (Nat.eqb a q); [apply mm_throw|].
  apply mm_bind; [apply mm_mk; intros q' [= <-]; exact H|intros ev; apply mm_schedule].
Qed.
Lemma mm_defuse ev : mildm (defuse ev).
Proof. apply mm_set_event. ev_. Qed.
Lemma mm_check c ev : mildm (check c ev).
Proof.
  unfold check. apply mm_getk. intros S _. destruct (trig S c); [apply mm_ret|]. destruct (event_at ev S) as [e|]; [|apply mm_ret].
  destruct (evalue e) as [[v|t]|]; try apply mm_succeed. apply mm_bind; [apply mm_defuse|intros _]. apply mm_bind; [apply mm_set_event; ev_|intros _; apply mm_schedule].
Qed.
Lemma mm_add_cb ev c : mildm (add_cb ev c).
Proof.
  apply mm_set_event. intros [r v d [l|]]; cbn; (split; [reflexivity|split; [auto; discriminate|]]).
  - apply incl_appl, incl_refl.
  - apply incl_refl.
Qed.
Lemma mm_any_of a b : mildm (any_of a b).
Proof.
  assert (W : forall c ev, mildm (watch c ev)) by (intros c ev; unfold watch; apply mm_getk; intros S _; destruct (processed ev S); [apply mm_check|apply mm_add_cb]).
  unfold any_of. apply mm_bind; [apply mm_new; discriminate|intros c]. apply mm_bind; [apply W|intros _]. apply mm_bind; [apply W|intros _; apply mm_ret].
Qed.
Ltac upd__ := apply mm_upd; intros ?S; try reflexivity; unfold put_started; destruct (early _); reflexivity.
Lemma mm_activate e : mildm (activate e).
Proof. unfold activate. apply mm_getk. intros S _. destruct (ewhat e); try apply mm_ret; (destruct (String.eqb _ _); [apply mm_ret|]; destruct (trig _ _); [apply mm_ret|apply mm_succeed]). Qed.
Lemma mm_interact : mildm interact.
Proof.
  unfold interact. apply mm_getk. intros S _. destruct (hasenv S); [|apply mm_ret]. apply mm_bind; [destruct (existsb _ _); [apply mm_succeed|apply mm_ret]|intros _; upd__].
Qed.
Lemma mm_act_of n : mildm (act_of n).
Proof. unfold act_of. apply mm_getk. intros S _. destruct (dget _ _); [apply mm_ret|apply mm_throw]. Qed.
(** Nobody of [P] is interrupted for the sake of [n]. *)
Definition okn (n : string) : Prop := forall q, dget X n = Some q -> ~ P q.
Lemma mm_interrupt_extra a n : okn n -> mildm (interrupt_extra a n).
Proof. intros H. unfold interrupt_extra. apply mm_getk. intros S E. rewrite E. destruct (dget X n) as [q|] eqn:Eq; [apply mm_interrupt; exact (H q Eq)|apply mm_throw]. Qed.
Lemma mm_launch a pr : (forall n, proc_name pr = Some n -> okn n) -> mildm (launch a pr).
Proof.
  intros H. unfold launch. destruct pr as [|id n m i c bs t|id n b i st t]; [apply mm_throw| |];
    (apply mm_bind; [apply mm_act_of|intros ev]; apply mm_getk; intros S _; destruct (trig S ev);
     [destruct (dget (inter S) n) as [id'|]; [|apply mm_ret]; destruct (Nat.eqb id id'); [apply mm_ret|]; apply mm_bind; [upd__|intros _; apply mm_interrupt_extra; apply H; reflexivity]
     |apply mm_bind; [|intros _; apply mm_succeed]]); [destruct (interruptible m); [upd__|apply mm_ret]|apply mm_ret].
Qed.
Lemma mm_launch_all a l : (forall x n, In x l -> proc_name x = Some n -> okn n) -> mildm (launch_all a l).
Proof.
  induction l as [|x l IH]; intros H; cbn [launch_all]; [apply mm_ret|]. apply mm_bind; [apply mm_launch; intros n; apply H; left; reflexivity|intros _]. apply IH. intros y n Hy. apply H. right. exact Hy.
Qed.
Lemma mm_zero k : mildm (zero k).
Proof. unfold zero. apply mm_bind; [apply mm_timeout|intros; apply mm_ret]. Qed.
Lemma mm_wait c p : mildm (wait_for c p).
Proof. unfold wait_for. apply mm_getk. intros S _. apply mm_ret. Qed.
Lemma remove_In x l l' : remove_procedural l = Some l' -> In x l' -> In x l.
Proof.
  revert l'. induction l as [|y l IH]; intros l'; cbn [remove_procedural]; [discriminate|]. destruct y as [|id n m i c bs t|id n b i st t].
  - intros [= <-] H. right. exact H.
  - destruct (remove_procedural l) as [l2|]; [|discriminate]. intros [= <-] [H|H]; [left; exact H|right; apply (IH l2 eq_refl H)].
  - destruct (remove_procedural l) as [l2|]; [|discriminate]. intros [= <-] [H|H]; [left; exact H|right; apply (IH l2 eq_refl H)].
Qed.
Lemma mild_proc_loop a S : extras S = X -> (forall x n, In x (get_started S) -> proc_name x = Some n -> okn n) -> mild S (fst (proc_loop a S)).
Proof.
  intros E H. unfold proc_loop, bind at 1, get at 1. destruct (remove_procedural (get_started S)) as [l|] eqn:El; [|apply mild_refl].
  revert S E H El. intros S E H El. assert (G : mildm (upd_ (put_started l) ;! launch_all a l ;! zero 4)); [|exact (G S E)].
  apply mm_bind; [upd__|intros _]. apply mm_bind; [|intros _; apply mm_zero]. apply mm_launch_all. intros x n Hx. apply H. exact (remove_In _ _ _ El Hx).
Qed.
Lemma mm_extra_loop O n : mildm (extra_loop O n).
Proof.
  unfold extra_loop. apply mm_getk. intros S _.
  assert (G : forall p l, mildm (upd_ (put_started l) ;! (let! ev := act_of n in let! S := get in (if trig S ev then ret tt else succeed ev) ;!
              let! pro := spawn (KLocal0 false n (proc_gen O p)) in wait_for (KExtraPro n pro) pro))).
  { intros p l. apply mm_bind; [upd__|intros _]. apply mm_bind; [apply mm_act_of|intros ev]. apply mm_getk. intros S1 _.
    apply mm_bind; [destruct (trig S1 ev); [apply mm_ret|apply mm_succeed]|intros _].
    apply mm_bind; [apply mm_spawn; [reflexivity|discriminate]|intros; apply mm_wait]. }
  destruct (take_proc n _) as [[p l]|]; [destruct p; [apply mm_throw|apply G|apply G]|].
  apply mm_bind; [upd__|intros _]. apply mm_bind; [apply mm_act_of|intros; apply mm_ret].
Qed.
Lemma mm_env_loop e g : mildm (env_loop e g).
Proof. unfold env_loop. apply mm_bind; [apply mm_spawn; [reflexivity|discriminate]|intros pro]. apply mm_getk. intros S _. apply mm_bind; [apply mm_any_of|intros; apply mm_ret]. Qed.
Lemma mm_local_next b n g : mildm (local_next b n g).
Proof.
  intros S E. unfold local_next. destruct (resume g (ss S)) as [[s' ns] o].
  assert (H0 : mild S (set_ss s' S)) by (apply mild_same; reflexivity).
  destruct o as [|x|e k|x]; try exact H0. eapply mild_trans; [exact H0|].
  apply (mm_bind _ (fun ev => ret (NWait (KLocal b n e k) ev))); [apply mm_timeout|intros; apply mm_ret|exact E].
Qed.

(** Automatic vision for one buffer, unless it makes a request to [n]. *)
Lemma mm_auto a nb : okn (fst nb) -> mildm (auto a nb).
Proof.
  destruct nb as [n i]. cbn [fst]. intros H. unfold auto. apply mm_getk. intros S _. destruct (nth_error (bufs (sw (ss S))) i) as [b|]; [|apply mm_ret]. cbv zeta.
  match goal with |- mildm (match ?k with _ => _ end) => destruct k as [enc|] end; [|apply mm_ret]. destruct (xstim (sscreen (ss S))) as [st|]; [|apply mm_throw].
  apply mm_bind; [upd__|intros _]. apply mm_bind; [upd__|intros _]. apply mm_bind; [apply mm_act_of|intros ev]. apply mm_getk. intros S1 _. destruct (trig S1 ev).
  - destruct (dget (inter S1) n) as [id'|]; [|apply mm_throw]. destruct (Nat.eqb _ id'); [apply mm_ret|]. apply mm_bind; [upd__|intros _; apply mm_interrupt_extra; exact H].
  - apply mm_bind; [upd__|intros _; apply mm_succeed].
Qed.
Lemma mm_auto_all a l : (forall x, In x l -> okn (fst x)) -> mildm (auto_all a l).
Proof. induction l as [|x l IH]; intros H; cbn [auto_all]; [apply mm_ret|]. apply mm_bind; [apply mm_auto; apply H; left; reflexivity|intros _; apply IH; intros y Hy; apply H; right; exact Hy]. Qed.

(** ** Processes that wait to be started *)
Definition waiting (S : sim) : list proc := match early S with Some l => l | None => [] end ++ sprocs (ss S).
Definition grow {A} (m : M A) : Prop := forall S, incl (waiting S) (waiting (fst (m S))).
Lemma gr_ret {A} (a : A) : grow (ret a).
Proof. intros S. apply incl_refl. Qed.
Lemma gr_throw {A} t : grow (@throw A t).
Proof. intros S. apply incl_refl. Qed.
Lemma gr_bind {A B} (m : M A) (k : A -> M B) : grow m -> (forall a, grow (k a)) -> grow (bind m k).
Proof. intros Hm Hk S. unfold bind. pose proof (Hm S) as H. destruct (m S) as [S1 [a|t]]; cbn [fst] in H |- *; [|exact H]. eapply incl_tran; [exact H|apply Hk]. Qed.
Lemma gr_getk {A} (k : sim -> M A) : (forall S, grow (k S)) -> grow (bind get k).
Proof. intros H S. unfold bind, get. apply H. Qed.
Lemma gr_upd f : (forall S, early (f S) = early S) -> (forall S, sprocs (ss (f S)) = sprocs (ss S)) -> grow (upd_ f).
Proof. intros H1 H2 S. unfold upd_, waiting. cbn [fst]. rewrite H1, H2. apply incl_refl. Qed.
Ltac gu := apply gr_upd; reflexivity.
Lemma gr_mk r v d c : grow (mk_event r v d c).
Proof. intros S. apply incl_refl. Qed.
Lemma gr_schedule p d ev : grow (schedule p d ev).
Proof. gu. Qed.
Lemma gr_set ev f : grow (set_event ev f).
Proof. apply gr_upd; intros S; destruct (nth_error _ _); reflexivity. Qed.
Lemma gr_succeed ev : grow (succeed ev).
Proof. unfold succeed. apply gr_getk. intros S. destruct (trig S ev); [apply gr_throw|]. apply gr_bind; [apply gr_set|intros; apply gr_schedule]. Qed.
Lemma gr_spawn c : grow (spawn c).
Proof. unfold spawn. apply gr_getk. intros S. apply gr_bind; [apply gr_mk|intros own]. apply gr_bind; [apply gr_mk|intros init]. apply gr_bind; [gu|intros _]. apply gr_bind; [apply gr_schedule|intros; apply gr_ret]. Qed.
Lemma gr_interrupt a q : grow (interrupt a q).
Proof. unfold interrupt. apply gr_getk. intros S. destruct (ended q S); [apply gr_throw|]. destruct (Nat.eqb a q); [apply gr_throw|]. apply gr_bind; [apply gr_mk|intros; apply gr_schedule]. Qed.
Lemma gr_interrupt_extra a n : grow (interrupt_extra a n).
Proof. unfold interrupt_extra. apply gr_getk. intros S. destruct (dget _ _); [apply gr_interrupt|apply gr_throw]. Qed.
Lemma gr_act_of n : grow (act_of n).
Proof. unfold act_of. apply gr_getk. intros S. destruct (dget _ _); [apply gr_ret|apply gr_throw]. Qed.
Lemma gr_check c ev : grow (check c ev).
Proof.
  unfold check. apply gr_getk. intros S. destruct (trig S c); [apply gr_ret|]. destruct (event_at ev S) as [e|]; [|apply gr_ret].
  destruct (evalue e) as [[v|t]|]; try apply gr_succeed. apply gr_bind; [apply gr_set|intros _]. apply gr_bind; [apply gr_set|intros _; apply gr_schedule].
Qed.
Lemma gr_any_of a b : grow (any_of a b).
Proof.
  assert (W : forall c ev, grow (watch c ev)) by (intros c ev; unfold watch; apply gr_getk; intros S; destruct (processed ev S); [apply gr_check|apply gr_set]).
  unfold any_of. apply gr_bind; [apply gr_mk|intros c]. apply gr_bind; [apply W|intros _]. apply gr_bind; [apply W|intros _; apply gr_ret].
Qed.
Lemma gr_env_loop e g : grow (env_loop e g).
Proof. unfold env_loop. apply gr_bind; [apply gr_spawn|intros pro]. apply gr_getk. intros S. apply gr_bind; [apply gr_any_of|intros; apply gr_ret]. Qed.
Lemma gr_put x : grow (upd_ (fun S => put_started (get_started S ++ [x]) S)).
Proof.
  intros S y. unfold upd_, waiting, put_started, get_started. cbn [fst]. destruct (early S) as [l|]; cbn [early set_early ss set_ss sprocs set_procs]; intros H.
  - apply in_app_or in H. apply in_or_app. destruct H as [H|H]; [left; apply in_or_app; left; exact H|right; exact H].
  - apply in_or_app. right. apply in_or_app. left. exact H.
Qed.
Definition auto_rest a (n : string) (id : nat) : M unit :=
  let! ev := act_of n in
  let! S := get in
  if trig S ev then
    match dget (inter S) n with
    | None => throw (TExn EKey)
    | Some id' =>
        if Nat.eqb id id' then ret tt
        else upd_ (fun S => set_inter (dset (inter S) n id) S) ;! interrupt_extra a n
    end
  else upd_ (fun S => set_inter (dset (inter S) n id) S) ;! succeed ev.
Lemma gr_auto_rest a n id : grow (auto_rest a n id).
Proof.
  unfold auto_rest. apply gr_bind; [apply gr_act_of|intros ev]. apply gr_getk. intros S. destruct (trig S ev).
  - destruct (dget _ _) as [id'|]; [|apply gr_throw]. destruct (Nat.eqb id id'); [apply gr_ret|]. apply gr_bind; [gu|intros; apply gr_interrupt_extra].
  - apply gr_bind; [gu|intros; apply gr_succeed].
Qed.
Lemma gr_auto a nb : grow (auto a nb).
Proof.
  destruct nb as [n i]. unfold auto. apply gr_getk. intros S. destruct (nth_error (bufs (sw (ss S))) i) as [b|]; [|apply gr_ret]. cbv zeta.
  match goal with |- grow (match ?k with _ => _ end) => destruct k as [enc|] end; [|apply gr_ret]. destruct (xstim (sscreen (ss S))) as [st|]; [|apply gr_throw].
  apply gr_bind; [gu|intros _]. apply gr_bind; [apply gr_put|intros _]. apply gr_auto_rest.
Qed.
Lemma gr_auto_all a l : grow (auto_all a l).
Proof. induction l as [|x l IH]; cbn [auto_all]; [apply gr_ret|]. apply gr_bind; [apply gr_auto|intros _; exact IH]. Qed.

(** ** Either nobody of [P] is interrupted, or a request to [n] waits to be started *)
Section Either.
Variable n : string.
Variable B : Prop.
Hypothesis Hn : forall m, m <> n -> okn m.
Hypothesis Hb : okn n \/ B.

Definition either_ {A} (m : M A) (S : sim) : Prop := mild S (fst (m S)) \/ (B /\ requested n (fst (m S))).
Lemma ei_mild {A} (m : M A) S : mildm m -> extras S = X -> either_ m S.
Proof. intros H E. left. apply H. exact E. Qed.
Lemma ei_bind {A C} (m : M A) (k : A -> M C) S : either_ m S -> extras S = X -> (forall a S1, extras S1 = X -> either_ (k a) S1) -> (forall a, grow (k a)) -> either_ (bind m k) S.
Proof.
  intros Hm E Hk Hg. unfold either_, bind in *. destruct (m S) as [S1 [a|t]]; cbn [fst] in Hm |- *; [|exact Hm].
  destruct Hm as [Hm|[HB (x & Hx & Ex)]].
  - destruct (Hk a S1) as [H|H]; [rewrite (m_ext _ _ Hm); exact E|left; exact (mild_trans _ _ _ Hm H)|right; exact H].
  - right. split; [exact HB|]. exists x. split; [apply Hg; exact Hx|exact Ex].
Qed.
Lemma ei_bindm {A C} (m : M A) (k : A -> M C) S : mildm m -> extras S = X -> (forall a S1, extras S1 = X -> either_ (k a) S1) -> either_ (bind m k) S.
Proof.
  intros Hm E Hk. pose proof (Hm S E) as K. unfold either_, bind. destruct (m S) as [S1 [a|t]]; cbn [fst] in K |- *; [|left; exact K].
  destruct (Hk a S1) as [L|L]; [rewrite (m_ext _ _ K); exact E|left; exact (mild_trans _ _ _ K L)|right; exact L].
Qed.
Lemma ei_getk {A} (k : sim -> M A) S : either_ (k S) S -> either_ (bind get k) S.
Proof. intros H. exact H. Qed.
Lemma ei_auto a nb S : extras S = X -> either_ (auto a nb) S.
Proof.
  intros E. destruct (string_dec (fst nb) n) as [Ed|Nd]; [|apply ei_mild; [apply mm_auto; apply Hn; exact Nd|exact E]].
  destruct Hb as [Ho|HB]; [apply ei_mild; [apply mm_auto; rewrite Ed; exact Ho|exact E]|].
  destruct nb as [n' i]. cbn [fst] in Ed. subst n'. unfold either_.
  assert (A : forall r, auto a (n, i) S = r -> fst r = S \/ exists enc st, let x := PAuto (snext (ss S)) n enc i st (seconds_of (now S)) in
            let S0 := set_ss (set_procs (sprocs (ss S)) (Datatypes.S (snext (ss S))) (ss S)) S in
            r = auto_rest a n (snext (ss S)) (put_started (get_started S0 ++ [x]) S0)).
  { intros r. unfold auto, bind at 1, get at 1. destruct (nth_error (bufs (sw (ss S))) i) as [b|]; [|intros <-; left; reflexivity]. cbv zeta.
    match goal with |- context [match ?k with Some _ => match xstim _ with _ => _ end | None => _ end] => destruct k as [enc|] end; [|intros <-; left; reflexivity].
    destruct (xstim (sscreen (ss S))) as [st|]; [|intros <-; left; reflexivity]. intros <-. right. exists enc, st. reflexivity. }
  destruct (A _ eq_refl) as [->|(enc & st & A')]; clear A; [left; apply mild_refl|]. cbv zeta in A'. right. split; [exact HB|].
  set (x := PAuto (snext (ss S)) n enc i st (seconds_of (now S))) in A'. exists x. split; [|reflexivity]. rewrite A'.
  apply (gr_auto_rest a n (snext (ss S)) _). unfold waiting, put_started, get_started. cbn [early set_early ss set_ss sprocs set_procs].
  destruct (early S) eqn:Ee; cbn [early set_early ss set_ss sprocs set_procs].
  - apply in_or_app. left. apply in_or_app. right. left. reflexivity.
  - rewrite Ee. apply in_or_app. right. apply in_or_app. right. left. reflexivity.
Qed.
Lemma ei_auto_all a l S : extras S = X -> either_ (auto_all a l) S.
Proof.
  revert S. induction l as [|x l IH]; intros S E; cbn [auto_all]; [apply ei_mild; [apply mm_ret|exact E]|].
  apply ei_bind; [apply ei_auto; exact E|exact E|intros _ S1 E1; apply IH; exact E1|intros _; apply gr_auto_all].
Qed.

Lemma go_on_either O p c o S : extras S = X -> okn n \/ ~ requested n S ->
  (forall m q, c = KExtraPro m q -> o = Bad TInterrupt -> ~ P q) -> (forall q g, c = KEnvWait q g -> ~ P q) -> either_ (go_on O p c o) S.
Proof.
  intros E Hr H1 H2. assert (Th : forall t, either_ (@throw nxt t) S) by (intros; apply ei_mild; [apply mm_throw|exact E]).
  assert (G : forall m : M nxt, mildm m -> either_ m S) by (intros; apply ei_mild; assumption).
  destruct c.
  - destruct o as [v|t]; [|apply Th]. apply G. cbn [go_on]. apply mm_getk. intros S1 _. apply mm_bind; [apply mm_spawn; [reflexivity|discriminate]|intros; apply mm_wait].
  - destruct o as [v|t]; [|destruct t; apply Th]. cbn [go_on]. left.
    assert (Hl : forall x m, In x (sprocs (ss S)) -> proc_name x = Some m -> okn m).
    { intros x m Hx Ex. destruct (string_dec m n) as [->|N]; [|apply Hn; exact N]. destruct Hr as [Hr|Hr]; [exact Hr|]. elim Hr. exists x. split; [apply in_or_app; right; exact Hx|exact Ex]. }
    unfold bind at 1, upd_ at 1. cbn [fst]. destruct first.
    + unfold bind, ret at 1. apply (mild_trans _ (set_early None S)); [apply mild_same; reflexivity|]. apply mild_proc_loop; [exact E|exact Hl].
    + unfold bind at 1. set (m0 := let! ev := new_event RAct in upd_ (set_pact ev)).
      assert (M0 : mild S (fst (m0 (set_early None S)))).
      { apply (mild_trans _ (set_early None S)); [apply mild_same; reflexivity|]. assert (K : mildm m0); [|exact (K (set_early None S) E)]. apply mm_bind; [apply mm_new; discriminate|intros; upd__]. }
      unfold m0, new_event, mk_event, bind, upd_ in M0 |- *. cbn [fst] in M0 |- *. eapply mild_trans; [exact M0|]. apply mild_proc_loop; [exact E|exact Hl].
  - destruct o as [v|t]; [|apply Th]. apply G. apply mm_zero.
  - destruct o as [v|t]; [|destruct more; apply Th]. destruct more as [|k]; apply G; cbn [go_on]; [|apply mm_zero].
    apply mm_getk. intros S1 _. apply mm_bind; [apply mm_spawn; [reflexivity|discriminate]|intros; apply mm_wait].
  - destruct o as [v|t]; [|apply Th]. apply G. apply mm_extra_loop.
  - destruct o as [v|t]; [|apply Th]. apply G. cbn [go_on]. apply mm_bind; [apply mm_new; discriminate|intros ev]. apply mm_bind; [upd__|intros _; apply mm_extra_loop].
  - destruct o as [v|t].
    + apply G. destruct v as [| |g]; cbn [go_on]; try apply mm_extra_loop. apply mm_bind; [apply mm_spawn; [reflexivity|discriminate]|intros; apply mm_wait].
    + destruct t; try apply Th. apply G. cbn [go_on]. apply mm_getk. intros S1 _.
      apply mm_bind; [|intros _; apply mm_extra_loop]. match goal with |- mildm (if ?b then _ else _) => destruct b end; [apply mm_ret|apply mm_interrupt; eapply H1; reflexivity].
  - destruct o as [v|t]; [apply G; apply mm_extra_loop|]. destruct t; try apply Th. apply G. apply mm_extra_loop.
  - destruct o as [v|t]; [|apply Th]. apply G. apply mm_local_next.
  - destruct o as [v|t]; [|destruct t; first [apply Th|apply G; apply mm_ret]]. apply G. cbn [go_on].
    apply mm_bind; [upd__|intros _]. apply mm_bind; [apply mm_activate|intros _]. apply mm_bind; [apply mm_interact|intros _; apply mm_local_next].
  - destruct o as [v|t]; [|apply Th]. cbn [go_on]. left. unfold env_next. destruct (resume g (ss S)) as [[s' ns] oo].
    assert (M0 : mild S (set_ss s' S)) by (apply mild_same; reflexivity). destruct oo as [|x|e g'|x]; try exact M0.
    eapply mild_trans; [exact M0|]. apply mm_env_loop. exact E.
  - destruct o as [v|t]; [|apply Th]. cbn [go_on]. apply ei_getk.
    assert (Ge : forall a e g', grow (let! S := get in auto_all a (snames (ss S)) ;! env_loop e g'))
      by (intros; apply gr_getk; intros ?; apply gr_bind; [apply gr_auto_all|intros; apply gr_env_loop]).
    assert (En : forall S1, extras S1 = X -> either_ (env_next g (fun r => match r with None => ret (NDone XUnit) | Some (e, g') => let! S := get in auto_all p (snames (ss S)) ;! env_loop e g' end)) S1).
    { intros S1 E1. unfold either_, env_next. destruct (resume g (ss S1)) as [[s' ns] oo]. assert (M0 : mild S1 (set_ss s' S1)) by (apply mild_same; reflexivity).
      destruct oo as [|x|e g'|x]; try (left; exact M0). unfold bind at 1 3, get at 1 2. set (m1 := auto_all p _ ;! env_loop e g').
      assert (K : either_ m1 (set_ss s' S1)).
      { apply ei_bind; [apply ei_auto_all; exact E1|exact E1|intros _ S2 E2; apply ei_mild; [apply mm_env_loop|exact E2]|intros _; apply gr_env_loop]. }
      destruct K as [K|K]; [left; exact (mild_trans _ _ _ M0 K)|right; exact K]. }
    set (m0 := if trig S (eact S) then let! ev := new_event RAct in upd_ (set_eact ev) ;! interrupt p pro else ret tt). assert (M0 : mildm m0).
    { unfold m0. match goal with |- mildm (if ?b then _ else _) => destruct b end; [|apply mm_ret]. apply mm_bind; [apply mm_new; discriminate|intros ev]. apply mm_bind; [upd__|intros _; apply mm_interrupt; eapply H2; reflexivity]. }
    apply ei_bindm; [exact M0|exact E|intros _; exact En].
  - destruct o as [v|t]; [|apply Th]. apply G. cbn [go_on]. apply mm_getk. intros S1 _. destruct (Z.ltb _ _); [apply mm_bind; [apply mm_activate|intros; apply mm_throw]|].
    apply mm_bind; [apply mm_timeout|intros; apply mm_ret].
  - destruct o as [v|t]; [|destruct t]; apply G; cbn [go_on].
    + apply mm_bind; [upd__|intros _]. apply mm_bind; [apply mm_activate|intros; apply mm_ret].
    + apply mm_bind; [apply mm_activate|intros; apply mm_throw].
    + apply mm_bind; [apply mm_activate|intros; apply mm_throw].
    + apply mm_bind; [apply mm_activate|intros; apply mm_ret].
  - destruct o as [v|t]; [|destruct t]; apply G; apply mm_ret.
Qed.
End Either.
End Mild.
