(** When a key press meets an event of the environment that has happened already. *)
From Coq Require Import Lia.
From Verif Require Import Base BaseFacts Chunks DecMem Buffers BufferFacts Productions ProdSpec Environment Sim SimSpec SimFacts SerialFacts StoryFacts InterruptFacts Run RunSpec RunFacts KeepSpec KeepFacts KeepRuns KeySpec.
Local Open Scope string_scope.
Local Open Scope list_scope.
Local Open Scope nat_scope.

(** ** What the code of a process does *)

Definition at_now (ev : nat) (S : sim) : Prop := exists q, In q (heap S) /\ qev q = ev /\ qtime q = now S.
Record dist (S : sim) : Prop := MkDist {
  d_eact : eact S < List.length (evs S);
  d_pact : pact S <> eact S /\ pact S < List.length (evs S);
  d_acts : forall n ev, dget (acts S) n = Some ev -> ev <> eact S /\ ev < List.length (evs S) }.

Section Code.
(** The process hands a trigger key to the environment. *)
Variable A : Prop.
Record ext (S S' : sim) : Prop := MkExt {
  x_now : now S' = now S;
  x_todo : todo S' = todo S;
  x_eact : eact S' = eact S;
  x_extras : extras S' = extras S;
  x_heap : incl (heap S) (heap S');
  x_log : incl (log S) (log S');
  x_prs : exists new, prs S' = prs S ++ new /\ Forall (fun r => pkind r <> Some GEnv) new;
  x_ev : forall ev e, event_at ev S = Some e -> exists e', event_at ev S' = Some e' /\ erole e' = erole e /\ incl (cbs_of e) (cbs_of e') /\
           (forall o, evalue e = Some o -> evalue e' = Some o) /\ (evalue e = None -> evalue e' = None \/ at_now ev S') /\ (ecbs e' = None <-> ecbs e = None);
  x_heapv : forall q, In q (heap S') -> In q (heap S) \/ trig S' (qev q) = true;
  x_len : List.length (evs S) <= List.length (evs S');
  x_dist : dist S';
  x_trig : trig S' (eact S) = true -> trig S (eact S) = true \/ A }.

Lemma ext_same S S' : dist S' -> now S' = now S -> todo S' = todo S -> eact S' = eact S -> extras S' = extras S -> heap S' = heap S -> incl (log S) (log S') -> prs S' = prs S -> evs S' = evs S -> ext S S'.
Proof.
  intros D E1 E2 E3 E4 E5 E6 E7 E8. assert (Ev : forall i, event_at i S' = event_at i S) by (intros i; unfold event_at; rewrite E8; reflexivity).
  constructor; auto.
  - rewrite E5. apply incl_refl.
  - exists []. rewrite app_nil_r. auto.
  - intros ev e He. exists e. rewrite Ev. repeat split; auto. apply incl_refl.
  - rewrite E5. auto.
  - rewrite E8. lia.
  - unfold trig. rewrite Ev. auto.
Qed.
Lemma ext_refl S : dist S -> ext S S.
Proof. intros D. apply ext_same; auto. apply incl_refl. Qed.
Lemma at_now_grow ev S S' : now S' = now S -> incl (heap S) (heap S') -> at_now ev S -> at_now ev S'.
Proof. intros E I (q & Hq & Q1 & Q2). exists q. rewrite E. auto. Qed.
Lemma grow_proc (S S' : sim) q r new : prs S' = prs S ++ new -> proc_at q S = Some r -> proc_at q S' = Some r.
Proof. intros E H. unfold proc_at in *. rewrite E, nth_error_app1; [exact H|]. apply nth_error_Some. congruence. Qed.
Lemma ext_proc S S' q r : ext S S' -> proc_at q S = Some r -> proc_at q S' = Some r.
Proof. intros X. destruct (x_prs _ _ X) as (new & E & _). exact (grow_proc _ _ _ _ _ E). Qed.
Lemma ext_trig S S' ev : ext S S' -> trig S ev = true -> trig S' ev = true.
Proof.
  intros X. unfold trig. destruct (event_at ev S) as [e|] eqn:E; [|discriminate]. destruct (x_ev _ _ X _ _ E) as (e' & -> & _ & _ & V & _). unfold triggered.
  destruct (evalue e) as [o|]; [|discriminate]. rewrite (V o eq_refl). reflexivity.
Qed.
Lemma ext_trans S1 S2 S3 : ext S1 S2 -> ext S2 S3 -> ext S1 S3.
Proof.
  intros X B. constructor.
  - rewrite (x_now _ _ B). apply X.
  - rewrite (x_todo _ _ B). apply X.
  - rewrite (x_eact _ _ B). apply X.
  - rewrite (x_extras _ _ B). apply X.
  - eapply incl_tran; [apply X|apply B].
  - eapply incl_tran; [apply X|apply B].
  - destruct (x_prs _ _ X) as (n1 & E1 & F1), (x_prs _ _ B) as (n2 & E2 & F2). exists (n1 ++ n2). rewrite E2, E1, app_assoc. split; [reflexivity|]. apply Forall_app. auto.
  - intros ev e He. destruct (x_ev _ _ X _ _ He) as (e1 & H1 & R1 & I1 & V1 & N1 & C1). destruct (x_ev _ _ B _ _ H1) as (e2 & H2 & R2 & I2 & V2 & N2 & C2).
    exists e2. split; [exact H2|]. split; [congruence|]. split; [eapply incl_tran; eassumption|]. split; [auto|]. split; [|tauto]. intros En.
    destruct (N1 En) as [Y|Y]; [auto|]. right. eapply at_now_grow; [apply B|apply B|exact Y].
  - intros q Hq. destruct (x_heapv _ _ B q Hq) as [Hq1|T]; [|auto]. destruct (x_heapv _ _ X q Hq1) as [Hq2|T]; [auto|]. right. eapply ext_trig; eassumption.
  - pose proof (x_len _ _ X). pose proof (x_len _ _ B). lia.
  - apply B.
  - intros T. rewrite <- (x_eact _ _ X) in T. destruct (x_trig _ _ B T) as [T1|T1]; [|auto]. rewrite (x_eact _ _ X) in T1. destruct (x_trig _ _ X T1) as [T2|T2]; auto.
Qed.

Definition km {T} (m : M T) (S : sim) : Prop := dist S -> ext S (fst (m S)).
Lemma km_ret {T} (a : T) S : km (ret a) S.
Proof. intros D. apply ext_refl. exact D. Qed.
Lemma km_throw {T} t S : km (@throw T t) S.
Proof. intros D. apply ext_refl. exact D. Qed.
Lemma km_bind {T B} (m : M T) (k : T -> M B) S : km m S -> (forall a S', m S = (S', inl a) -> ext S S' -> dist S' -> km (k a) S') -> km (bind m k) S.
Proof.
  intros Hm Hk D. unfold bind. pose proof (Hm D) as X. destruct (m S) as [S1 [a|t]] eqn:E; cbn [fst] in X |- *; [|exact X].
  eapply ext_trans; [exact X|]. apply (Hk a S1 eq_refl X); apply X.
Qed.
Lemma km_get {T} (k : sim -> M T) S : km (k S) S -> km (bind get k) S.
Proof. intros H. exact H. Qed.
Lemma km_upd f S : (dist S -> dist (f S)) -> now (f S) = now S -> todo (f S) = todo S -> eact (f S) = eact S -> extras (f S) = extras S -> heap (f S) = heap S -> incl (log S) (log (f S)) -> prs (f S) = prs S -> evs (f S) = evs S -> km (upd_ f) S.
Proof. intros. intros D. apply ext_same; auto. Qed.
Lemma dist_same S S' : eact S' = eact S -> pact S' = pact S -> acts S' = acts S -> extras S' = extras S -> List.length (evs S) <= List.length (evs S') ->
  (exists new, prs S' = prs S ++ new) -> dist S -> dist S'.
Proof.
  intros E1 E2 E3 E4 L (new & E5) [D1 D2 D3]. constructor; rewrite ?E1, ?E2, ?E3, ?E4; auto; [lia|lia|intros n ev Hn; specialize (D3 n ev Hn); lia].
Qed.
Lemma dist_upd f S : eact (f S) = eact S -> pact (f S) = pact S -> acts (f S) = acts S -> extras (f S) = extras S -> prs (f S) = prs S -> evs (f S) = evs S -> dist S -> dist (f S).
Proof. intros E1 E2 E3 E4 E5 E6. apply dist_same; auto; [rewrite E6; lia|exists []; rewrite app_nil_r; exact E5]. Qed.
Lemma km_upd' f S : pact (f S) = pact S -> acts (f S) = acts S -> now (f S) = now S -> todo (f S) = todo S -> eact (f S) = eact S -> extras (f S) = extras S -> heap (f S) = heap S -> log (f S) = log S -> prs (f S) = prs S -> evs (f S) = evs S -> km (upd_ f) S.
Proof. intros. apply km_upd; auto; [apply dist_upd; auto|]. match goal with H : log _ = _ |- _ => rewrite H end. apply incl_refl. Qed.
Ltac ku := apply km_upd'; try reflexivity; unfold put_started; destruct (early _); reflexivity.

Lemma km_mk r v d c S : km (mk_event r v d c) S.
Proof.
  intros D. unfold mk_event. cbn [fst].
  assert (D' : dist (set_evs (evs S ++ [MkEvt r v d (Some c)]) S)) by (revert D; apply dist_same; try reflexivity; [cbn [evs set_evs]; rewrite app_length; lia|exists []; rewrite app_nil_r; reflexivity]).
  constructor; try reflexivity; try apply incl_refl; auto.
  - exists []. rewrite app_nil_r. auto.
  - intros ev e He. exists e. split; [apply nth_snoc_old; exact He|]. repeat split; auto. apply incl_refl.
  - cbn [evs set_evs]. rewrite app_length. lia.
  - unfold trig. destruct (nth_error (evs S) (eact S)) as [e|] eqn:He; [|apply nth_error_None in He; pose proof (d_eact _ D); lia].
    rewrite (nth_snoc_old _ _ _ _ He : event_at (eact S) (set_evs _ S) = Some e). unfold event_at. rewrite He. auto.
Qed.
Lemma km_new r S : km (new_event r) S.
Proof. apply km_mk. Qed.
Lemma km_schedule p d ev S : trig S ev = true -> km (schedule p d ev) S.
Proof.
  intros Ht D. unfold schedule, upd_. cbn [fst]. constructor; try reflexivity; try apply incl_refl; auto.
  - intros q Hq. cbn [heap set_queue]. apply in_or_app. auto.
  - exists []. rewrite app_nil_r. auto.
  - intros i e He. exists e. repeat split; auto. apply incl_refl.
  - intros q Hq. cbn [heap set_queue] in Hq. apply in_app_or in Hq. destruct Hq as [Hq|[<-|[]]]; auto.
  - revert D. apply dist_same; try reflexivity. exists []. rewrite app_nil_r. reflexivity.
Qed.
(** A change that leaves the value of the event. *)
Lemma km_set_event ev f S : (forall e, erole (f e) = erole e /\ evalue (f e) = evalue e /\ (ecbs (f e) = None <-> ecbs e = None) /\ incl (cbs_of e) (cbs_of (f e))) -> km (set_event ev f) S.
Proof.
  intros Hf D. unfold set_event, upd_. cbn [fst]. destruct (nth_error (evs S) ev) as [e|] eqn:He; [|apply ext_refl; exact D]. destruct (Hf e) as (F1 & F2 & F4 & F3).
  assert (At : forall i, event_at i (set_evs (upd (evs S) ev (f e)) S) = if Nat.eqb i ev then Some (f e) else event_at i S).
  { intros i. unfold event_at. cbn [evs set_evs]. destruct (Nat.eqb_spec i ev) as [->|N]; [apply (upd_same _ _ _ e); exact He|apply upd_other; exact N]. }
  constructor; try reflexivity; try apply incl_refl; auto.
  - exists []. rewrite app_nil_r. auto.
  - intros i x Hx. rewrite At. destruct (Nat.eqb_spec i ev) as [->|N]; [|exists x; repeat split; auto; apply incl_refl].
    assert (x = e) by (unfold event_at in Hx; congruence). subst x. exists (f e). rewrite F2. repeat split; auto; apply F4.
  - cbn [evs set_evs]. rewrite upd_length. lia.
  - revert D. apply dist_same; try reflexivity; [cbn [evs set_evs]; rewrite upd_length; lia|exists []; rewrite app_nil_r; reflexivity].
  - unfold trig. rewrite At. destruct (Nat.eqb_spec (eact S) ev) as [->|N]; [|auto]. unfold event_at. rewrite He. unfold triggered. rewrite F2. auto.
Qed.
(** An event gets its value and is put in the queue. *)
Lemma km_give ev o S : ev < List.length (evs S) -> trig S ev = false -> ev <> eact S \/ A ->
  km (set_event ev (fun e => MkEvt (erole e) (Some o) (edefused e) (ecbs e)) ;! schedule NORMAL 0 ev) S.
Proof.
  intros Lv Ht Hn D. unfold bind, set_event, schedule, upd_. cbn [fst snd]. destruct (nth_error (evs S) ev) as [e|] eqn:He.
  2: { apply nth_error_None in He. lia. }
  set (f := MkEvt (erole e) (Some o) (edefused e) (ecbs e)). set (S' := set_queue _ _ _).
  assert (En : evalue e = None) by (unfold trig, event_at in Ht; rewrite He in Ht; unfold triggered in Ht; destruct (evalue e); [discriminate|reflexivity]).
  assert (At : forall i, event_at i S' = if Nat.eqb i ev then Some f else event_at i S).
  { intros i. unfold event_at, S'. cbn [evs set_evs set_queue]. destruct (Nat.eqb_spec i ev) as [->|N]; [apply (upd_same _ _ _ e); exact He|apply upd_other; exact N]. }
  constructor; try reflexivity; try apply incl_refl; auto.
  - intros q Hq. cbn [heap set_queue S']. apply in_or_app. auto.
  - exists []. rewrite app_nil_r. auto.
  - intros i x Hx. rewrite At. destruct (Nat.eqb_spec i ev) as [->|N]; [|exists x; repeat split; auto; apply incl_refl].
    assert (x = e) by (unfold event_at in Hx; congruence). subst x. exists f. repeat split; auto; [apply incl_refl|rewrite En; discriminate|]. intros _. right.
    eexists. split; [cbn [heap set_queue S']; apply in_or_app; right; left; reflexivity|]. split; [reflexivity|]. cbn [qtime now set_queue set_evs]. change (now S') with (now S). lia.
  - intros q Hq. cbn [heap set_queue S'] in Hq. apply in_app_or in Hq. destruct Hq as [Hq|[<-|[]]]; [auto|]. right. unfold trig. cbn [qev]. rewrite At, Nat.eqb_refl. reflexivity.
  - cbn [evs set_evs S' set_queue]. rewrite upd_length. lia.
  - revert D. apply dist_same; try reflexivity; [cbn [evs set_evs S' set_queue]; rewrite upd_length; lia|exists []; rewrite app_nil_r; reflexivity].
  - unfold trig. rewrite At. destruct (Nat.eqb_spec (eact S) ev) as [Eq|N]; [|auto]. intros _. right. destruct Hn as [Hn|Hn]; [elim Hn; symmetry; exact Eq|exact Hn].
Qed.
Lemma km_succeed ev S : ev < List.length (evs S) -> ev <> eact S \/ A -> km (succeed ev) S.
Proof. intros L H. unfold succeed. apply km_get. destruct (trig S ev) eqn:E; [apply km_throw|]. apply km_give; assumption. Qed.
Lemma mk_trig r o d c S S' ev : mk_event r (Some o) d c S = (S', inl ev) -> trig S' ev = true.
Proof. unfold mk_event. intros [= <- <-]. unfold trig, event_at. cbn [evs set_evs]. rewrite nth_snoc_new. reflexivity. Qed.
Lemma km_timeout d S : km (timeout d) S.
Proof.
  unfold timeout. destruct (Z.ltb d 0); [apply km_throw|]. apply km_get. apply km_bind; [apply km_mk|intros ev S1 E1 _ _]. apply km_bind; [apply km_schedule; apply (mk_trig _ _ _ _ _ _ _ E1)|intros; apply km_ret].
Qed.
Lemma km_spawn c S : kind_of c <> Some GEnv -> km (spawn c) S.
Proof.
  intros Hk. unfold spawn. apply km_get. apply km_bind; [apply km_new|intros own S1 _ _ _]. apply km_bind; [apply km_mk|intros init S2 E2 _ _].
  apply km_bind; [|intros u S3 E3 X3 _; apply km_bind; [apply km_schedule; apply (ext_trig _ _ _ X3); apply (mk_trig _ _ _ _ _ _ _ E2)|intros; apply km_ret]].
  intros D. unfold upd_. cbn [fst]. constructor; try reflexivity; try apply incl_refl; auto.
  - eexists. split; [reflexivity|]. repeat constructor. exact Hk.
  - intros i e He. exists e. repeat split; auto. apply incl_refl.
  - revert D. apply dist_same; try reflexivity. eexists. reflexivity.
Qed.
Lemma km_interrupt a q S : km (interrupt a q) S.
Proof.
  unfold interrupt. apply km_get. destruct (ended q S); [apply km_throw|]. destruct (Nat.eqb a q); [apply km_throw|].
  apply km_bind; [apply km_mk|intros ev S1 E1 _ _; apply km_schedule; apply (mk_trig _ _ _ _ _ _ _ E1)].
Qed.
Lemma km_defuse ev S : km (defuse ev) S.
Proof. apply km_set_event. intros e. repeat split; auto. apply incl_refl. Qed.
Lemma km_check c ev S : c < List.length (evs S) -> c <> eact S -> km (check c ev) S.
Proof.
  intros L N. unfold check. apply km_get. destruct (trig S c) eqn:Et; [apply km_ret|]. destruct (event_at ev S) as [e|]; [|apply km_ret].
  destruct (evalue e) as [[v|t]|]; try (apply km_succeed; [exact L|left; exact N]). apply km_bind; [apply km_defuse|intros u S1 E1 X1 _].
  apply km_give; [pose proof (x_len _ _ X1); lia| |left; rewrite (x_eact _ _ X1); exact N].
  clear - Et E1. unfold defuse, set_event, upd_ in E1. injection E1 as <- _. unfold trig, event_at in *. destruct (nth_error (evs S) ev) as [x|] eqn:Hx; [|exact Et]. cbn [evs set_evs].
  destruct (Nat.eq_dec c ev) as [->|N]; [rewrite (upd_same _ _ _ _ Hx); rewrite Hx in Et; exact Et|rewrite upd_other by exact N; exact Et].
Qed.
Lemma km_add_cb ev c S : km (add_cb ev c) S.
Proof. apply km_set_event. intros [r v d [l|]]; cbn; repeat split; auto; try discriminate; [apply incl_appl|]; apply incl_refl. Qed.
Lemma km_activate e S : km (activate e) S.
Proof.
  intros D. revert D. unfold activate. apply km_get.
  assert (G : km (if String.eqb (eproc e) PROCEDURAL then ret tt else if trig S (pact S) then ret tt else succeed (pact S)) S).
  { intros D. revert D. destruct (String.eqb _ _); [apply km_ret|]. destruct (trig _ _); [apply km_ret|]. intros D. apply km_succeed; [apply D|left; apply D|exact D]. }
  destruct (ewhat e); try exact G. apply km_ret.
Qed.
Lemma hit_true s : existsb (fun k => existsb (fun v => str_value v k) (skeys s)) (xtrig (sscreen s)) = true -> hit s.
Proof.
  intros H. apply existsb_exists in H. destruct H as (k & Hk & H). apply existsb_exists in H. destruct H as (v & Hv & E). exists k. split; [exact Hk|]. destruct v; try discriminate. apply String.eqb_eq in E. subst. exact Hv.
Qed.
Lemma km_interact S : (hit (ss S) -> A) -> km interact S.
Proof.
  intros Hn. unfold interact. apply km_get. destruct (hasenv S); [|apply km_ret]. apply km_bind; [destruct (existsb _ _) eqn:Eh; [intros D; apply km_succeed; [apply D|right; apply Hn, hit_true; exact Eh|exact D]|apply km_ret]|intros; ku].
Qed.
Lemma km_act_of n S : km (act_of n) S.
Proof. unfold act_of. apply km_get. destruct (dget _ _); [apply km_ret|apply km_throw]. Qed.
Lemma km_with_act {T} n (k : nat -> M T) S : (forall ev, ev <> eact S -> ev < List.length (evs S) -> km (k ev) S) -> km (bind (act_of n) k) S.
Proof.
  intros Hk. apply km_bind; [apply km_act_of|]. intros ev S' E _ D. assert (X : act_of n S = (S, snd (act_of n S))) by (unfold act_of, bind, get; destruct (dget (acts S) n); reflexivity).
  rewrite X in E. injection E as <- E. unfold act_of, bind, get in E. destruct (dget (acts S) n) as [x|] eqn:Ex; [|discriminate]. injection E as <-. apply Hk; apply (d_acts _ D _ _ Ex).
Qed.
Lemma km_interrupt_extra a n S : km (interrupt_extra a n) S.
Proof.
  unfold interrupt_extra. apply km_get. destruct (dget (extras S) n) as [q|]; [apply km_interrupt|apply km_throw].
Qed.
Lemma km_launch a pr S : km (launch a pr) S.
Proof.
  unfold launch. destruct pr as [|id n m i c bs t|id n b i st t]; [apply km_throw| |];
    (apply km_with_act; intros ev Ne Lv; apply km_get; destruct (trig S ev);
     [destruct (dget (inter S) n) as [id'|]; [|apply km_ret]; destruct (Nat.eqb id id'); [apply km_ret|]; apply km_bind; [ku|intros; apply km_interrupt_extra]
     |apply km_bind; [|intros u S1 _ X1 _; apply km_succeed; [pose proof (x_len _ _ X1); lia|left; rewrite (x_eact _ _ X1); exact Ne]]]); [destruct (interruptible m); [ku|apply km_ret]|apply km_ret].
Qed.
Lemma km_launch_all a l : forall S, km (launch_all a l) S.
Proof. induction l as [|x l IH]; intros S; cbn [launch_all]; [apply km_ret|]. apply km_bind; [apply km_launch|intros; apply IH]. Qed.
Lemma km_zero k S : km (zero k) S.
Proof. unfold zero. apply km_bind; [apply km_timeout|intros; apply km_ret]. Qed.
Lemma km_wait c p S : km (wait_for c p) S.
Proof. unfold wait_for. apply km_get. apply km_ret. Qed.
Lemma km_proc_loop a S : km (proc_loop a) S.
Proof.
  unfold proc_loop. apply km_get. destruct (remove_procedural _) as [l|]; [|apply km_ret]. apply km_bind; [ku|intros]. apply km_bind; [apply km_launch_all|intros; apply km_zero].
Qed.
Lemma km_extra_loop O n S : km (extra_loop O n) S.
Proof.
  unfold extra_loop. apply km_get.
  assert (G : forall p l, km (upd_ (put_started l) ;! (let! ev := act_of n in let! S := get in (if trig S ev then ret tt else succeed ev) ;!
              let! pro := spawn (KLocal0 false n (proc_gen O p)) in wait_for (KExtraPro n pro) pro)) S).
  { intros p l. apply km_bind; [ku|intros u S1 _ _ _]. apply km_with_act. intros ev Ne Lv. apply km_get. apply km_bind; [destruct (trig S1 ev); [apply km_ret|apply km_succeed; auto]|intros].
    apply km_bind; [apply km_spawn; discriminate|intros; apply km_wait]. }
  destruct (take_proc n _) as [[p l]|]; [destruct p; [apply km_throw|apply G|apply G]|].
  apply km_bind; [ku|intros]. apply km_bind; [apply km_act_of|intros; apply km_ret].
Qed.
Lemma km_auto a x S : km (auto a x) S.
Proof.
  destruct x as [n i]. unfold auto. apply km_get. cbv zeta. destruct (nth_error _ i) as [b|]; [|apply km_ret].
  destruct (match bkind b with KLocation => _ | KVisual => _ | _ => _ end); [|apply km_ret]. destruct (xstim _); [|apply km_throw].
  apply km_bind; [ku|intros]. apply km_bind; [ku|intros u1 S1 _ _ _]. apply km_with_act. intros ev Ne Lv. apply km_get. destruct (trig _ ev).
  - destruct (dget _ n) as [id'|]; [|apply km_throw]. match goal with |- km (if ?b then _ else _) _ => destruct b end; [apply km_ret|]. apply km_bind; [ku|intros; apply km_interrupt_extra].
  - apply km_bind; [ku|intros u2 S2 _ X2 _]. apply km_succeed; [pose proof (x_len _ _ X2); lia|]. left. rewrite (x_eact _ _ X2). exact Ne.
Qed.
Lemma km_auto_all a l : forall S, km (auto_all a l) S.
Proof. induction l as [|x l IH]; intros S; cbn [auto_all]; [apply km_ret|]. apply km_bind; [apply km_auto|intros; apply IH]. Qed.
Lemma km_local_next b n g S : km (local_next b n g) S.
Proof.
  intros D. unfold local_next. destruct (resume g (ss S)) as [[s' ns] o].
  assert (X : ext S (set_ss s' S)) by (apply ext_same; try reflexivity; [revert D; apply dist_same; try reflexivity; exists []; rewrite app_nil_r; reflexivity|apply incl_refl]).
  destruct o as [|x|e k|k]; cbn [fst]; try exact X. eapply ext_trans; [exact X|].
  assert (Y : km (let! ev := timeout (etime e - now (set_ss s' S)) in ret (NWait (KLocal b n e k) ev)) (set_ss s' S)) by (apply km_bind; [apply km_timeout|intros; apply km_ret]).
  apply Y. apply X.
Qed.
Lemma km_note e S : km (note e) S.
Proof. unfold note. apply km_upd; try reflexivity; [apply dist_upd; reflexivity|]. cbn [log set_log]. apply incl_appl, incl_refl. Qed.

(** All processes but the environment. *)
Lemma activate_ss e S : ss (fst (activate e S)) = ss S.
Proof.
  unfold activate, bind, get. assert (G : ss (fst ((if String.eqb (eproc e) PROCEDURAL then ret tt else if trig S (pact S) then ret tt else succeed (pact S)) S)) = ss S).
  { destruct (String.eqb _ _); [reflexivity|]. destruct (trig S (pact S)) eqn:T; [reflexivity|]. unfold succeed, bind, get. rewrite T. unfold set_event, schedule, upd_. cbn [fst]. destruct (nth_error _ _); reflexivity. }
  destruct (ewhat e); try exact G. reflexivity.
Qed.
Lemma km_go_on O p c o S : kind_of c <> Some GEnv -> (forall b n e k v, c = KLocal b n e k -> o = Good v -> hit (ss S) -> A) -> km (go_on O p c o) S.
Proof.
  intros Hk Ha. destruct c; cbn [kind_of] in Hk; try (elim Hk; reflexivity).
  - destruct o as [v|t]; [|apply km_throw]. cbn [go_on]. apply km_get. apply km_bind; [apply km_spawn; discriminate|intros; apply km_wait].
  - destruct o as [v|t]; [|destruct t; apply km_throw]. cbn [go_on]. apply km_bind; [ku|intros u S1 _ _ _]. apply km_bind; [|intros; apply km_proc_loop].
    destruct first; [apply km_ret|]. intros D. unfold bind, new_event, mk_event, upd_. cbn [fst].
    eapply ext_trans; [apply (km_mk RAct None false [] S1); exact D|]. cbn [fst mk_event].
    pose proof (d_eact _ D). apply ext_same; try reflexivity; [|apply incl_refl]. destruct D as [D1 D2 D3]. constructor; auto; cbn [eact pact set_pact set_evs evs]; [rewrite app_length; lia|rewrite app_length; cbn [List.length]; lia|intros n ev0 Hn; specialize (D3 n ev0 Hn); rewrite app_length; lia].
  - destruct o as [v|t]; [|apply km_throw]. apply km_zero.
  - destruct more; (destruct o as [v|t]; [|apply km_throw]); cbn [go_on]; [|apply km_zero]. apply km_get. apply km_bind; [apply km_spawn; discriminate|intros; apply km_wait].
  - destruct o as [v|t]; [|apply km_throw]. apply km_extra_loop.
  - destruct o as [v|t]; [|apply km_throw]. cbn [go_on]. intros D. pose proof (d_eact _ D) as L. revert D. apply km_bind; [apply km_new|]. intros ev1 S1 E1 X1 _. apply km_bind; [|intros; apply km_extra_loop].
    apply km_upd; try reflexivity; [|apply incl_refl]. intros [D1 D2 D3]. constructor; auto; cbn [eact acts set_acts evs]. intros n ev'. rewrite dget_dset. destruct (String.eqb name n); [|apply D3]. intros [= <-].
    unfold new_event, mk_event in E1. injection E1 as <- <-. cbn [eact set_evs evs]. rewrite app_length. cbn [List.length]. lia.
  - destruct o as [[| |g]|t]; cbn [go_on]; try apply km_extra_loop.
    + apply km_bind; [apply km_spawn; discriminate|intros; apply km_wait].
    + destruct t; try apply km_throw. apply km_get. apply km_bind; [|intros; apply km_extra_loop].
      destruct (ended pro S); [apply km_ret|]. apply km_interrupt.
  - destruct o as [v|t]; [apply km_extra_loop|]. destruct t; try apply km_throw. apply km_extra_loop.
  - destruct o as [v|t]; [|apply km_throw]. apply km_local_next.
  - destruct o as [v|t]; [|destruct t; first [exact (km_throw _ _)|exact (km_ret _ _)]]. cbn [go_on].
    apply km_bind; [apply km_note|]. intros u S1 E1 X1 D1. assert (N1 : ss S1 = ss S) by (unfold note, upd_ in E1; injection E1 as <-; reflexivity).
    apply km_bind; [apply km_activate|]. intros u' S2 E2 X2 D2. apply km_bind; [apply km_interact|intros; apply km_local_next]. pose proof (activate_ss e S1) as N2. rewrite E2 in N2. cbn [fst] in N2. rewrite N2, N1. apply (Ha _ _ _ _ _ eq_refl eq_refl).
  - destruct o as [v|t]; [|apply km_throw]. cbn [go_on]. apply km_get. destruct (Z.ltb _ _); [apply km_bind; [apply km_activate|intros; apply km_throw]|apply km_bind; [apply km_timeout|intros; apply km_ret]].
  - destruct o as [v|t]; cbn [go_on].
    + apply km_bind; [apply km_note|intros]. apply km_bind; [apply km_activate|intros; apply km_ret].
    + destruct t; (apply km_bind; [apply km_activate|intros]); apply km_ret || apply km_throw.
  - destruct o; apply km_ret.
Qed.
End Code.
