(** The screen changes only through the environment; the window shows the screen. *)
From Coq Require Import Lia.
From Verif Require Import Base BaseFacts Chunks DecMem Buffers BufferFacts Productions ProdSpec ProdFacts LearnFacts Environment Sim SimFacts LiftFacts FrameFacts Run RunSpec RunFacts Window WindowSpec.
Local Open Scope string_scope.
Local Open Scope list_scope.
Local Open Scope nat_scope.

(** ** Rules and modules leave the screen alone *)

Definition still_on (s s' : st) : Prop := sscreen s' = sscreen s.
Lemma so_refl s : still_on s s. Proof. reflexivity. Qed.
Lemma so_trans s1 s2 s3 : still_on s1 s2 -> still_on s2 s3 -> still_on s1 s3. Proof. unfold still_on. congruence. Qed.
Ltac so_mod i s := unfold still_on; destruct (nth_error (smods s) i); reflexivity.
Lemma so_attrs i l s : still_on s (set_attrs i l s). Proof. unfold set_attrs. so_mod i s. Qed.
Lemma so_state i v s : still_on s (set_state i v s). Proof. apply so_attrs. Qed.
Lemma so_focus i p s : still_on s (set_focus i p s). Proof. unfold set_focus. so_mod i s. Qed.
Lemma so_attend i p s : still_on s (set_attend i p s). Proof. unfold set_attend. so_mod i s. Qed.
Lemma so_mvt i p s : still_on s (set_mvt i p s). Proof. unfold set_mvt. so_mod i s. Qed.
Lemma so_mlast i p s : still_on s (set_mlast i p s). Proof. unfold set_mlast. so_mod i s. Qed.
Lemma so_call {A} (f : st -> world * res A) k : (forall a, free still_on (k a)) -> free still_on (gcall f k).
Proof. intros K s. cbn [gcall moves]. destruct (f s) as [w [a|e]]; cbn [moves]; (split; [reflexivity|]); [apply K|exact I]. Qed.
Lemma so_record f k : free still_on k -> free still_on (g_record f k).
Proof. intros K. apply free_get. intros s. destruct (f s); [|apply free_raise]. apply free_act; [|exact K]. intros s'. reflexivity. Qed.
Ltac so_step := match goal with
  | |- free _ GRet => apply free_ret
  | |- free _ (GRaise _) => apply free_raise
  | |- free _ (GYield _ _) => apply free_yield
  | |- free _ (GCont _) => apply free_cont
  | |- free _ (GNote _ _) => apply free_note
  | |- free _ (gcall _ _) => apply so_call; intros ?
  | |- free _ (g_record _ _) => apply so_record
  | |- free _ (gseq _ _) => apply free_gseq
  | |- free _ (GGet _) => apply free_get; intros ?
  | |- free _ (GAct (set_state _ _) _) => apply free_act; [intros ?; apply so_state|]
  | |- free _ (GAct (set_attrs _ _) _) => apply free_act; [intros ?; apply so_attrs|]
  | |- free _ (GAct (set_focus _ _) _) => apply free_act; [intros ?; apply so_focus|]
  | |- free _ (GAct (set_attend _ _) _) => apply free_act; [intros ?; apply so_attend|]
  | |- free _ (GAct (set_mvt _ _) _) => apply free_act; [intros ?; apply so_mvt|]
  | |- free _ (GAct (set_mlast _ _) _) => apply free_act; [intros ?; apply so_mlast|]
  | |- free _ (GAct (fun s => set_mlast _ _ s) _) => apply free_act; [intros ?; apply so_mlast|]
  | |- free _ (GAct _ _) => apply free_act; [intros ?; try reflexivity|]
  | |- free _ (match ?x with _ => _ end) => destruct x
  | |- free _ (let _ := _ in _) => cbv zeta
  end.
Ltac so := repeat so_step.
Section Screens.
Variable O : oracle.
Lemma so_clear name i opt t fr : free still_on (g_clear name i opt t fr). Proof. unfold g_clear. so. Qed.
Lemma so_encode name i ch t x site : free still_on (g_encode name i ch t x site). Proof. unfold g_encode. repeat first [apply so_clear|progress so]. Qed.
Lemma so_viscont name i ch bs t times site : free still_on (g_viscont O name i ch bs t times site).
Proof. unfold g_viscont. destruct times as [[enc prep] exe]. repeat first [apply so_encode|progress so]. Qed.
Lemma so_shift name i c bs t : free still_on (g_shift O name i c bs t).
Proof. unfold g_shift. repeat first [apply so_encode|apply so_viscont|progress so]. Qed.
Lemma so_visual name i c bs t : free still_on (g_visual O name i c bs t).
Proof.
  unfold g_visual. destruct c; try apply free_raise. destruct (resolve_slots bs true _) as [args|]; [|apply free_raise].
  destruct (dget args "cmd") as [[]|]; try apply free_raise. pose proof (so_shift name i (CChunk c) bs t) as F.
  assert (K : free still_on (GAct (set_attend i false) (GAct (set_state i "free") (GYield (ev t name (WText "VISUAL STOPPED FROM AUTOMATIC BUFFERING AT ITS CURRENT FOCUS")) GRet))))
    by (apply free_act; [intros s; apply so_attend|apply free_act; [intros s; apply so_state|apply free_yield, free_ret]]).
  destruct (vvals w) as [| |x|]; try apply free_raise; try apply free_ret.
  repeat match goal with |- context[match ?z with _ => _ end] => is_var z; destruct z; try exact F; try exact K; try apply free_raise; try apply free_ret end.
Qed.
Lemma so_motor name i c bs t : free still_on (g_motor name i c bs t).
Proof. unfold g_motor, g_motorcont. so. all: unfold still_on; repeat match goal with |- context[match ?x with _ => _ end] => destruct x end; reflexivity. Qed.
Lemma so_start m name i c bs t : free still_on (start O m name i c bs t).
Proof.
  destruct m; cbn [start]; unfold g_extra, g_modify, g_execute, g_overwrite, g_modreq, g_request, g_setgoal, g_retrieve, g_find;
    repeat first [apply so_clear|apply so_visual|apply so_motor|progress so].
  destruct c; so.
Qed.
Lemma so_proc p : free still_on (proc_gen O p).
Proof.
  destruct p as [|n name m i c bs t|n name [|] i l t]; cbn [proc_gen]; [apply free_ret|apply so_start| |]; unfold g_autobuffer, g_autosearch; so.
Qed.
Lemma so_harvest names t : forall s, still_on s (harvest names t s).
Proof.
  induction names as [|n names IH]; cbn [harvest]; intros s; [apply so_refl|]. eapply so_trans; [|apply IH]. destruct (dget (snames s) n); reflexivity.
Qed.
Lemma so_actions t l : forall temp, free still_on (actions O t temp l).
Proof.
  induction l as [|[key c] l IH]; intros temp; cbn [actions].
  - apply free_get. intros s. destruct (qstrict _); [|apply free_ret]. apply free_act; [apply so_harvest|apply free_ret].
  - destruct key as [|code name]; [apply free_raise|]. destruct (rhs_meth code) as [m|]; [|apply free_raise]. apply free_get. intros s.
    destruct (dget (snames s) name) as [i|]; [|apply free_raise]. apply free_note. apply free_act; [intros s'; apply so_state|].
    destruct (interruptible m); [apply free_act; [|apply IH]|apply free_gseq; [apply so_start|apply IH]]. intros s'. reflexivity.
Qed.
Lemma so_fire r ru t : free still_on (g_fire O r ru t).
Proof.
  unfold g_fire, g_update. apply free_act; [intros s; reflexivity|]. apply free_yield. apply free_gseq.
  - apply free_get. intros s. destruct (ordered_rhs _); [apply so_actions|apply free_raise].
  - apply free_act; [|apply free_ret]. intros s. destruct (slast s) as [l|]; [destruct (_ && _)%bool|]; reflexivity.
Qed.
Lemma so_learned s ru t s' : learned s ru t = Ok s' -> still_on s s'.
Proof.
  unfold learned. destruct (rreward ru) as [rew|]; [|intros [= <-]; reflexivity]. destruct (qlearn (sp s)); [|intros [= <-]; reflexivity].
  destruct (modify_utilities _ _ _ _ _) as [rs|]; [|discriminate]. cbn. intros [= <-]. reflexivity.
Qed.
Lemma so_try r t : free still_on (g_try O r t).
Proof.
  unfold g_try. intros s. cbn [moves]. destruct (dget (srules s) r) as [ru|]; [|exact I].
  destruct (lhs_test s (rlhs ru) (svars s)) as [[b|]|]; [|intros s'; exact I|exact I].
  cbv zeta. destruct (learned (set_vars b s) ru t) as [s2|] eqn:L; [|exact I]. assert (E : still_on s s2) by (apply so_learned in L; exact L).
  destruct (compile_now O s2) as [[[[n again] rs]|]|e]; cbn [moves]; (split; [exact E|]); [apply so_fire|apply so_fire|exact I].
Qed.
Lemma so_use r t s : still_on s (use_rule r t (set_rule (Some r) s)).
Proof. unfold use_rule. repeat match goal with |- context[match ?z with _ => _ end] => destruct z end; reflexivity. Qed.
Lemma so_procedural t : free still_on (procedural O t).
Proof.
  unfold procedural. apply free_act; [intros s; reflexivity|]. apply free_yield. apply free_act; [intros s; reflexivity|].
  apply free_get. intros s. destruct (select O s) as [[r|]|]; [| |apply free_raise].
  - apply free_act; [intros s'; apply so_use|]. apply free_yield. cbv zeta. apply free_yield. apply so_try.
  - apply free_act; [intros s'; reflexivity|]. destruct (remove_procedural _); [|apply free_raise].
    apply free_act; [intros s'; reflexivity|]. apply free_yield, free_ret.
Qed.
End Screens.

(** ** Whole simulations *)

Definition onto (Q : screen -> Prop) (s s' : st) : Prop := Q (sscreen s) -> Q (sscreen s').
Lemma free_weaken (R R' : st -> st -> Prop) : (forall s s', R s s' -> R' s s') -> forall g, free R g -> free R' g.
Proof.
  intros W g. assert (M : forall s, moves R g s -> moves R' g s).
  { induction g as [|e|e g IH|g IH|n g IH|f g IH|k IH]; intros s; cbn [moves]; auto. intros [H1 H2]. split; auto. }
  intros F s. apply M, F.
Qed.
Lemma still_onto Q g : free still_on g -> free (onto Q) g.
Proof. apply free_weaken. unfold still_on, onto. intros s s' ->. auto. Qed.
Lemma keeps_onto Q g : keeps_screen Q g -> free (onto Q) g.
Proof.
  induction g as [|e|e g IH|g IH|n g IH|f g IH|k IH]; cbn [keeps_screen]; intros H.
  - apply free_ret. - apply free_raise. - apply free_yield; auto. - apply free_cont; auto. - apply free_note; auto.
  - destruct H as [H1 H2]. apply free_act; auto.
  - apply free_get. intros s. apply IH, H.
Qed.
Lemma onto_governed (Q : screen -> Prop) (A : Prop) O : governed (fun s => A -> Q (sscreen s)) anyone (free (onto Q)) O (keeps_screen Q).
Proof.
  split.
  - intros s1 l n H1 _. exact H1.
  - intros s1 H1. exact H1.
  - intros s1 _. apply all_anyone.
  - intros s1 i b _ _ _ id name en stims t1. exact I.
  - intros g s1 s2 ns o F Hs E. destruct (resume_moves (onto Q) (fun s => id) (fun s1 s2 s3 X Y Z => Y (X Z)) g s1 s2 ns o (F s1) E) as [X Y]. split; [intros a; apply X, Hs, a|exact Y].
  - intros p _. apply still_onto, so_proc.
  - intros t1. apply still_onto, so_procedural.
  - apply keeps_onto.
Qed.
(** From any moment of a simulation on. *)
Theorem screen_kept (Q : screen -> Prop) O t s env S1 S2 : (forall g, env = Some g -> keeps_screen Q g) ->
  sim_runs O (sim_init t s env) S1 -> sim_runs O S1 S2 -> Q (sscreen (ss S1)) -> Q (sscreen (ss S2)).
Proof.
  intros A H1 H2. pose proof (onto_governed Q False O) as V1. pose proof (onto_governed Q (Q (sscreen (ss S1))) O) as V2.
  pose proof (inv_runs _ _ _ _ _ V1 _ _ H1 (inv_init _ _ _ _ _ V1 t s env (fun x => match x with end) A)) as [_ I2 I3 I4 _].
  refine (i_ss _ _ _ _ (inv_runs _ _ _ _ _ V2 _ _ H2 _)). split; [exact (fun x => x)|exact I2|exact I3|exact I4|apply all_anyone].
Qed.
Definition leaves {A} (m : M A) : Prop := forall S, ss (fst (m S)) = ss S.
Lemma leaves_bind {A B} (m : M A) (k : A -> M B) : leaves m -> (forall a, leaves (k a)) -> leaves (bind m k).
Proof. intros H K S. unfold bind. specialize (H S). destruct (m S) as [S' [a|f]]; cbn [fst] in *; [rewrite K; exact H|exact H]. Qed.
Lemma leaves_spawn c : leaves (spawn c). Proof. intros S. reflexivity. Qed.
Lemma leaves_act (f : nat -> sim -> sim) : (forall e S, ss (f e S) = ss S) -> leaves (let! ev := new_event RAct in upd_ (f ev)).
Proof. intros F S. unfold bind, new_event, mk_event, upd_. cbn. rewrite F. reflexivity. Qed.
Lemma init_screen t s env : ss (sim_init t s env) = s.
Proof.
  assert (L : leaves (initialise (dkeys (snames s)) env)); [|unfold sim_init, exec_; rewrite L; reflexivity].
  unfold initialise. apply leaves_bind; [apply leaves_spawn|intros _]. apply leaves_bind.
  { induction (dkeys (snames s)) as [|n names IH]; cbn [make_extras]; [intros S; reflexivity|]. apply leaves_bind; [|intros _; exact IH].
    destruct (String.eqb n PROCEDURAL); [intros S; reflexivity|]. apply leaves_bind; [apply leaves_spawn|intros p]. apply leaves_bind; [intros S; reflexivity|intros _].
    apply (leaves_act (fun ev S => set_acts (dset (acts S) n ev) S)). reflexivity. }
  intros _. apply leaves_bind; [apply (leaves_act set_pact); reflexivity|intros _]. destruct env as [g|]; [|intros S; reflexivity].
  apply leaves_bind; [apply leaves_spawn|intros _]. apply (leaves_act set_eact). reflexivity.
Qed.
Theorem screen_alone O t s S : sim_runs O (sim_init t s None) S -> sscreen (ss S) = sscreen s.
Proof. intros R. apply (screen_kept (fun x => x = sscreen s) O t s None (sim_init t s None)); [discriminate|apply sim_runs_refl|exact R|rewrite init_screen; reflexivity]. Qed.

(** ** The environment *)

Lemma screens_keep (Q : screen -> Prop) stims : forall t trs ts, (forall x k, In x stims -> Q (MkScr (Some x) k)) -> keeps_screen Q (screens t stims trs ts).
Proof.
  induction stims as [|x stims IH]; intros t trs ts H; cbn [screens]; [exact I|]. destruct ts as [|d ts], trs as [|k trs]; try exact I. cbn [keeps_screen]. split.
  - intros s _. apply (H x k). left. reflexivity.
  - apply IH. intros y k' Hy. apply H. right. exact Hy.
Qed.
Lemma rmap_in {A B} (f : A -> res B) l : forall r y, rmap f l = Ok r -> In y r -> exists x, In x l /\ f x = Ok y.
Proof.
  induction l as [|a l IH]; intros r y E Hy; cbn [rmap] in E; [injection E as <-; destruct Hy|].
  destruct (f a) as [b|] eqn:F; [|discriminate]. cbn [rbind] in E. destruct (rmap f l) as [r'|] eqn:G; [|discriminate]. injection E as <-.
  destruct Hy as [<-|Hy]; [exists a; split; [left; reflexivity|exact F]|]. destruct (IH _ _ eq_refl Hy) as (x & X & Y). exists x. split; [right; exact X|exact Y].
Qed.
Lemma repeat_in {A} (l : list A) n : forall x, In x (repeat_list l n) -> In x l.
Proof. induction n as [|n IH]; intros x; cbn [repeat_list]; [intros []|]. intros H. apply in_app_or in H. destruct H; auto. Qed.
Lemma env_keeps (Q : screen -> Prop) initial stimuli triggers times start : (forall x, given (as_list stimuli) x -> Q x) -> keeps_screen Q (env_process initial stimuli triggers times start).
Proof.
  intros H. unfold env_process. destruct (prepare _ _ _) as [[[objs ks] ts]|] eqn:E; [|exact I]. cbn [keeps_screen]. apply screens_keep. intros x k Hx. apply H.
  unfold prepare in E. destruct (rmap stim_objects (as_list stimuli)) as [os|] eqn:R; [|discriminate]. cbn [rbind] in E.
  destruct (balance os (as_list triggers)) as [[st tr]|] eqn:B; [|discriminate]. cbn [rbind fst snd] in E.
  destruct (fit _ _) as [ts'|]; [|discriminate]. cbn [rbind] in E. destruct (rmap trigger_set tr) as [ks'|]; [|discriminate]. injection E as <- <- <-.
  assert (I' : In x os).
  { unfold balance in B. destruct (Nat.eqb _ _); [injection B as <- _; exact Hx|]. destruct (Nat.eqb _ 1); [injection B as <- _; eapply repeat_in; exact Hx|].
    destruct (Nat.eqb _ 1); [injection B as <- _; exact Hx|discriminate]. }
  destruct (rmap_in _ _ _ _ R I') as (a & A1 & A2). exists a, x. auto.
Qed.
Theorem screen_given O t s initial stimuli triggers times start S :
  sim_runs O (sim_init t s (Some (env_process initial stimuli triggers times start))) S -> sscreen (ss S) = sscreen s \/ given (as_list stimuli) (sscreen (ss S)).
Proof.
  intros R. refine (screen_kept (fun x => x = sscreen s \/ given (as_list stimuli) x) O t s _ _ S _ (sim_runs_refl _ _) R _); [|left; rewrite init_screen; reflexivity].
  intros g [= <-]. apply env_keeps. auto.
Qed.

(** ** The window *)

Lemma drain_runs O S S' : drain O S S' -> sim_runs O S S'.
Proof.
  intros D. induction D as [S t Hd|S Hd Ht|S S1 S2 Hd Ht Hs D IH]; try apply sim_runs_refl.
  clear -Hs IH. induction IH as [S1|S1 S2 S3 R IH E]; [eapply sim_runs_step; [apply sim_runs_refl|exact Hs]|eapply sim_runs_step; [apply IH; exact Hs|exact E]].
Qed.
Lemma runs_trans O S1 S2 S3 : sim_runs O S1 S2 -> sim_runs O S2 S3 -> sim_runs O S1 S3.
Proof. intros A B. induction B as [S2|S2 S3 S4 R IH E]; [exact A|eapply sim_runs_step; [apply IH; exact A|exact E]]. Qed.
Lemma tick_runs O S S' : tick O S S' -> sim_runs O S S'.
Proof. intros (S1 & _ & Hs & D). eapply runs_trans; [eapply sim_runs_step; [apply sim_runs_refl|exact Hs]|apply drain_runs; exact D]. Qed.

Lemma draw_plain tk l : Forall (plain_object tk) l -> draw tk l = Some (picture (Some l)).
Proof.
  intros H. induction H as [|st l (T & T' & A1 & A2 & A3 & A4) H IH]; [reflexivity|]. cbn [draw]. rewrite IH. unfold draw_one, options.
  rewrite A1, A2, A3. cbn [app]. destruct (sttext st) as [x|] eqn:E; [|congruence]. cbn [app forallb]. rewrite T'. cbn [andb].
  assert (F : forallb tk (dkeys (stfeats st)) = true) by (apply forallb_forall; exact A4). rewrite F. cbn [picture flat_map]. rewrite E. reflexivity.
Qed.
Lemma plain_objects tk a l : plain_screen tk a -> stim_objects a = Ok l -> l <> [] /\ Forall (plain_object tk) l.
Proof.
  intros (d & -> & N & H) E. cbn [stim_objects] in E. destruct (all_some (map snd d)) as [l'|] eqn:A; [|discriminate]. injection E as <-.
  revert l' A N H. induction d as [|[n o] d IH]; intros l' A N H; [congruence|]. cbn [map snd all_some] in A. destruct o as [st|]; [|discriminate].
  destruct (all_some (map snd d)) as [r|] eqn:R; [|discriminate]. injection A as <-. split; [discriminate|].
  destruct (H n (Some st)) as (st' & [= <-] & P); [left; reflexivity|]. constructor; [exact P|].
  destruct d as [|x d]; [cbn in R; injection R as <-; constructor|]. apply (IH r eq_refl); [discriminate|]. intros n' o' Ho. apply (H n' o'). right. exact Ho.
Qed.
Lemma window_app tk ms ms' : forall w, window tk w (ms ++ ms') = window tk (window tk w ms) ms'.
Proof.
  induction ms as [|m ms IH]; intros [w|]; cbn [app window]; try reflexivity; [|destruct ms'; reflexivity]. apply IH.
Qed.
(** What was sent last is what is on the screen, and what is in the window. *)
Lemma watched_shows O tk old S ms old' S' : watched O old S ms old' S' ->
  (forall S1, sim_runs O S S1 -> match on_screen S1 with None => old = None | Some l => l <> [] /\ Forall (plain_object tk) l end) ->
  (forall S1 S2, sim_runs O S S1 -> sim_runs O S1 S2 -> on_screen S1 <> None -> on_screen S2 <> None) ->
  (old = None -> on_screen S = None) -> (forall l, old = Some l -> on_screen S = Some l) ->
  forall w, w = Some (picture old) -> window tk w ms = Some (picture (on_screen S')).
Proof.
  intros W. induction W as [old S|old S S1 m old1 ms old' S' Hd T D Sd W IH]; intros G M N0 N1 w ->.
  - cbn [window]. destruct old as [l|]; [rewrite (N1 l eq_refl); reflexivity|rewrite (N0 eq_refl); reflexivity].
  - rewrite window_app. pose proof (tick_runs _ _ _ T) as R1. assert (G1 := G S1 R1).
    assert (M' : forall S2 S3, sim_runs O S1 S2 -> sim_runs O S2 S3 -> on_screen S2 <> None -> on_screen S3 <> None) by (intros S2 S3 A B; apply M; [eapply runs_trans; eassumption|exact B]).
    assert (GG : forall o, on_screen S1 = o -> o = old1 -> window tk (Some (picture old)) m = Some (picture old1) ->
      window tk (window tk (Some (picture old)) m) ms = Some (picture (on_screen S'))).
    { intros o Eo Eold Ew. apply IH.
      - intros S2 R2. pose proof (G S2 (runs_trans _ _ _ _ R1 R2)) as G2. destruct (on_screen S2) as [l|] eqn:E2; [exact G2|].
        destruct old1 as [l1|]; [|reflexivity]. exfalso. apply (M S1 S2 R1 R2); [congruence|exact E2].
      - exact M'.
      - intros ->. congruence.
      - intros l ->. congruence.
      - exact Ew. }
    inversion Sd as [B E1 E2|l E N Eo E1 E2|l E N Eo E1 E2]; subst.
    + destruct B as [B|B]; rewrite B in G1; [|destruct G1; congruence]. apply (GG None); auto.
    + apply (GG (Some l)); auto.
    + apply (GG (Some l)); auto. rewrite E in G1. destruct G1 as [_ G1]. cbn [window]. rewrite (draw_plain _ _ G1). reflexivity.
Qed.

Theorem window_shows O tk t s initial stimuli triggers times start ms old S :
  xstim (sscreen s) = None -> Forall (plain_screen tk) (as_list stimuli) ->
  watched O None (sim_init t s (Some (env_process initial stimuli triggers times start))) ms old S ->
  window tk (Some []) ms = Some (picture (on_screen S)).
Proof.
  intros H0 P W. assert (E0 : on_screen (sim_init t s (Some (env_process initial stimuli triggers times start))) = None) by (unfold on_screen; rewrite init_screen; exact H0).
  eapply (watched_shows O tk _ _ _ _ _ W); [| |intros _; exact E0|intros l [=]|reflexivity].
  - intros S1 R. destruct (screen_given _ _ _ _ _ _ _ _ _ R) as [E|(a & l & A1 & A2 & A3)]; unfold on_screen; [rewrite E, H0; reflexivity|].
    rewrite A3. rewrite Forall_forall in P. exact (plain_objects tk a l (P a A1) A2).
  - intros S1 S2 R1 R2. unfold on_screen. apply (screen_kept (fun x => xstim x <> None) O t s (Some (env_process initial stimuli triggers times start)) S1 S2); [|exact R1|exact R2].
    intros g [= <-]. apply env_keeps. intros x (a & l & _ & _ & ->). discriminate.
Qed.
