(** Invariants of the state of the model during a simulation. *)
From Verif Require Import Base BaseFacts Chunks ChunkMatch DecMem Buffers BufferFacts Productions ProdSpec Sim MotorSpec MotorFacts ReachSpec.
Local Open Scope string_scope.
Local Open Scope list_scope.
Local Open Scope nat_scope.

(** ** Generators *)

Section Stays.
Variable P : st -> Prop.

(** From state [s] on [g] keeps [P], if everything else keeps [P] while [g] is suspended. *)
Fixpoint stays (g : gen) (s : st) {struct g} : Prop :=
  match g with
  | GRet => True
  | GRaise _ => True
  | GYield _ k => forall s', P s' -> stays k s'
  | GCont k => forall s', P s' -> stays k s'
  | GNote _ k => stays k s
  | GAct f k => P (f s) /\ stays k (f s)
  | GGet k => stays (k s) s
  end.
Definition fine (g : gen) : Prop := forall s, P s -> stays g s.

Lemma stays_gseq g k : fine k -> forall s, stays g s -> P s -> stays (gseq g k) s.
Proof.
  intros K. induction g as [|e|e g IH|g IH|n g IH|f g IH|g IH]; intros s H Hs; cbn [gseq stays] in *.
  - apply K. exact Hs.
  - exact I.
  - intros s' Hs'. apply IH; [apply H; exact Hs'|exact Hs'].
  - exact H.
  - apply IH; assumption.
  - destruct H as [H1 H2]. split; [exact H1|apply IH; assumption].
  - apply IH; assumption.
Qed.
Lemma fine_gseq g k : fine g -> fine k -> fine (gseq g k).
Proof. intros G K s Hs. apply stays_gseq; [exact K|apply G; exact Hs|exact Hs]. Qed.
Lemma fine_ret : fine GRet. Proof. intros s H. exact I. Qed.
Lemma fine_raise e : fine (GRaise e). Proof. intros s H. exact I. Qed.
Lemma fine_yield e k : fine k -> fine (GYield e k). Proof. intros H s Hs s' Hs'. apply H. exact Hs'. Qed.
Lemma fine_cont k : fine k -> fine (GCont k). Proof. intros H s Hs s' Hs'. apply H. exact Hs'. Qed.
Lemma fine_note n k : fine k -> fine (GNote n k). Proof. intros H s Hs. apply (H s Hs). Qed.
Lemma fine_act f k : (forall s, P s -> P (f s)) -> fine k -> fine (GAct f k).
Proof. intros F H s Hs. split; [apply F; exact Hs|apply H, F, Hs]. Qed.
Lemma fine_get k : (forall s, fine (k s)) -> fine (GGet k).
Proof. intros H s Hs. apply (H s s Hs). Qed.
Lemma fine_read k : (forall s, P s -> stays (k s) s) -> fine (GGet k).
Proof. intros H s Hs. apply (H s Hs). Qed.

Lemma resume_fine g : forall s s' ns o, P s -> stays g s -> resume g s = (s', ns, o) ->
  P s' /\ match o with OYield _ k => fine k | OCont k => fine k | _ => True end.
Proof.
  induction g as [|e|e g IH|g IH|n g IH|f g IH|g IH]; intros s s' ns o Hs H E; cbn [resume stays] in *.
  - injection E as <- <- <-. auto.
  - injection E as <- <- <-. auto.
  - injection E as <- <- <-. auto.
  - injection E as <- <- <-. auto.
  - destruct (resume g s) as [[s1 ns1] o1] eqn:R. injection E as <- <- <-. exact (IH _ _ _ _ Hs H R).
  - destruct H as [H1 H2]. exact (IH _ _ _ _ H1 H2 E).
  - exact (IH _ _ _ _ _ Hs H E).
Qed.
End Stays.

(** ** The generators of the production system *)

(** [P] survives changes of everything but parameters, names, memories and the world, and
    of the world by steps of [reach]; the motor module may stop being prepared and known keys may
    be pressed. *)
Record closed (P : st -> Prop) : Prop := MkClosed {
  cl_same : forall s s', sp s' = sp s -> sw s' = sw s -> snames s' = snames s -> sdm s' = sdm s ->
    (sprep s' = true -> sprep s = true) ->
    (forall u, In u (skeys s') -> In u (skeys s) \/ exists v, u = VStr v /\ known_key v) -> P s -> P s';
  cl_world : forall s w, reach (sw s) w -> P s -> P (set_w w s) }.

Section Gens.
Variable P : st -> Prop.
Hypothesis C : closed P.
Variable O : oracle.
Hypothesis RO : respects O.
Let same := cl_same P C.

Lemma fine_call {A} (f : st -> world * res A) k : (forall s, reach (sw s) (fst (f s))) -> (forall a, fine P (k a)) -> fine P (gcall f k).
Proof.
  intros F K. apply fine_read. intros s Hs. specialize (F s). destruct (f s) as [w [a|e]]; cbn [fst] in F; cbn [stays].
  - pose proof (cl_world P C s w F Hs) as H. split; [exact H|apply K; exact H].
  - split; [apply (cl_world P C); assumption|exact I].
Qed.
Lemma fine_call_if {A} (f : st -> world * res A) k : (forall s, reach (sw s) (fst (f s))) -> (forall s a, snd (f s) = Ok a -> fine P (k a)) -> fine P (gcall f k).
Proof.
  intros F K. apply fine_read. intros s Hs. specialize (F s). specialize (K s). destruct (f s) as [w [a|e]]; cbn [fst snd] in F, K; cbn [stays].
  - pose proof (cl_world P C s w F Hs) as H. split; [exact H|apply K; [reflexivity|exact H]].
  - split; [apply (cl_world P C); assumption|exact I].
Qed.
Lemma keep_attrs i l s : P s -> P (set_attrs i l s).
Proof. apply same; unfold set_attrs; destruct (nth_error (smods s) i); auto. Qed.
Lemma keep_state i v s : P s -> P (set_state i v s). Proof. apply keep_attrs. Qed.
Lemma keep_focus i p s : P s -> P (set_focus i p s).
Proof. apply same; unfold set_focus; destruct (nth_error (smods s) i); auto. Qed.
Lemma keep_attend i p s : P s -> P (set_attend i p s).
Proof. apply same; unfold set_attend; destruct (nth_error (smods s) i); auto. Qed.
Lemma keep_mvt i p s : P s -> P (set_mvt i p s).
Proof. apply same; unfold set_mvt; destruct (nth_error (smods s) i); auto. Qed.
Lemma keep_mlast i p s : P s -> P (set_mlast i p s).
Proof. apply same; unfold set_mlast; destruct (nth_error (smods s) i); auto. Qed.
Hint Resolve keep_attrs keep_state keep_focus keep_attend keep_mvt keep_mlast fine_ret fine_raise fine_yield fine_cont fine_note fine_act fine_gseq fine_get : fine.

Lemma fine_record f k : fine P k -> fine P (g_record f k).
Proof.
  intros K. apply fine_get. intros s. destruct (f s); [|apply fine_raise]. apply fine_act; [|exact K]. intros s'. apply same; auto.
Qed.

(** *** World steps *)

Lemma reach_step w o : sim_op o -> reach w (fst (step w o)).
Proof. intros H. apply reach_op; [apply reach_refl|exact H]. Qed.
Lemma add_reach s i x t h st0 : reach (sw s) (fst (on_buf s i (fun b => add_buf (sw s) i b x t h st0))).
Proof.
  unfold on_buf. destruct (nth_error (bufs (sw s)) i) as [b|] eqn:E; [|apply reach_refl].
  pose proof (reach_step (sw s) (OAdd i x t h st0) I) as R. cbn in R. rewrite E in R. exact R.
Qed.
Lemma clear_reach s i b t h : nth_error (bufs (sw s)) i = Some b -> reach (sw s) (fst (clear_buf (sw s) i b t h)).
Proof. intros E. pose proof (reach_step (sw s) (OClear i t h) I) as R. cbn in R. rewrite E in R. exact R. Qed.
Lemma modify_reach s i b o bs x : nth_error (bufs (sw s)) i = Some b -> reach (sw s) (fst (modify_buf (sw s) i b o bs x)).
Proof. intros E. pose proof (reach_step (sw s) (OModify i o bs x) I) as R. cbn in R. rewrite E in R. exact R. Qed.
Lemma create_reach s i b o bs : nth_error (bufs (sw s)) i = Some b -> reach (sw s) (fst (create_buf (sw s) i b o bs)).
Proof. intros E. pose proof (reach_step (sw s) (OCreate i o bs) I) as R. cbn in R. rewrite E in R. exact R. Qed.
Lemma retrieve_reach s i b p act t o bs x : nth_error (bufs (sw s)) i = Some b -> reach (sw s) (fst (retrieve_buf (sw s) i b p act t o bs x)).
Proof.
  intros E. pose proof (reach_step (sw s) (ORetrieve i p act t o bs x) I) as R. cbn in R. rewrite E in R.
  destruct (retrieve_buf (sw s) i b p act t o bs x) as [w r]. exact R.
Qed.
Lemma clear_into_reach s i name opt t : reach (sw s) (fst (clear_into s i name opt t)).
Proof.
  unfold clear_into, on_buf. destruct (nth_error (bufs (sw s)) i) as [b|] eqn:E; [|apply reach_refl].
  pose proof (fun h => clear_reach s i b t h E) as R.
  assert (G : reach (sw s) (fst (match clear_buf (sw s) i b t None with
        | (w, Err EAttr) =>
            match sdm s with
            | [(_, m)] => clear_buf (sw s) i b t (Some m)
            | _ =>
                if opt then (sw s, Err EKey)
                else match dget (sdm s) name with
                     | Some m => clear_buf (sw s) i b t (Some m)
                     | None => (sw s, Err EActr)
                     end
            end
        | r => r
        end))).
  { pose proof (R None) as R0. destruct (clear_buf (sw s) i b t None) as [w [u|[]]]; try exact R0.
    destruct (sdm s) as [|[x m] [|]]; [destruct opt; [apply reach_refl|]; destruct (dget _ name); [apply R|apply reach_refl]|apply R|].
    destruct opt; [apply reach_refl|]. destruct (dget _ name); [apply R|apply reach_refl]. }
  destruct (bkind b); try exact G. apply reach_refl.
Qed.
Lemma modify_call_reach i c bs s : reach (sw s) (fst (modify_call i c bs s)).
Proof.
  unfold modify_call, on_buf. destruct (nth_error (bufs (sw s)) i) as [b|] eqn:E; [|apply reach_refl].
  destruct c; try (destruct (bkind b); apply modify_reach; exact E);
    (destruct (bdata b) as [|dd rest] eqn:D; [apply reach_refl|]; eapply reach_pop; [apply reach_refl|exact E|exact D]).
Qed.
Lemma create_call_reach i c bs s : reach (sw s) (fst (create_call i c bs s)).
Proof.
  unfold create_call, on_buf. destruct (sdm s); [apply reach_refl|]. destruct (nth_error (bufs (sw s)) i) as [b|] eqn:E; [|apply reach_refl].
  destruct (bkind b), c; try apply reach_refl. apply create_reach. exact E.
Qed.
Lemma auto_reach s i ch t x : reach (sw s) (fst (on_buf s i (fun b => match bdata b with
    | [] => add_buf (sw s) i b (AChunk ch) t None x | _ => modify_buf (sw s) i b ch nobind x end))).
Proof.
  pose proof (add_reach s i (AChunk ch) t None x) as A. unfold on_buf in *. destruct (nth_error (bufs (sw s)) i) as [b|] eqn:E; [|apply reach_refl].
  destruct (bdata b); [exact A|]. apply modify_reach. exact E.
Qed.
Lemma motor_reach w o bs : reach w (fst (match motor_create (wreg w) o bs with Ok (r, k) => (set_reg w r, Ok k) | Err e => (w, Err e) end)).
Proof.
  destruct (motor_create (wreg w) o bs) as [[r k]|e] eqn:E; [|apply reach_refl]. cbn [fst]. unfold motor_create in E.
  destruct (resolve_slots bs true (removeunused o)) as [args|]; [|discriminate]. cbn in E. destruct (mk_chunk (wreg w) "_manual" args) as [[r1 c1]|] eqn:M; [|discriminate]. cbn in E.
  assert (G : forall a r2 c2, mk_chunk r1 "_manual" a = Ok (r2, c2) -> reach w (set_reg w r2)).
  { intros a r2 c2 M2. change (set_reg w r2) with (set_reg (set_reg w r1) r2). eapply reach_chunk; [eapply reach_chunk; [apply reach_refl|exact M]|exact M2]. }
  destruct (dget (cslots c1) "cmd") as [[cmd|]|]; try discriminate. destruct (vvals cmd) as [| |x|]; try discriminate.
  repeat match type of E with match ?z with _ => _ end = _ =>
    lazymatch z with
    | mk_chunk _ _ _ => fail
    | _ => destruct z; try discriminate
    end end.
  all: match type of E with context[mk_chunk ?q ?ty ?a] => destruct (mk_chunk q ty a) as [[r2 c2]|] eqn:M2; [|discriminate] end.
  all: cbn in E; repeat match type of E with match ?z with _ => _ end = _ => destruct z; try discriminate end.
  all: injection E as <- _; eapply G; exact M2.
Qed.

(** *** Methods of processes *)

Lemma fine_extra name i c t : fine P (g_extra name i c t).
Proof.
  unfold g_extra. apply fine_act; [apply keep_state|]. assert (K : fine P (GAct (set_state i "free") (GYield (ev t name (WText "EXTRA TEST ADDED")) GRet))) by auto with fine.
  destruct c; auto. apply fine_act; [|exact K]. intros s. apply same; auto.
Qed.
Lemma fine_clear name i opt t fr : fine P (g_clear name i opt t fr).
Proof.
  unfold g_clear. apply fine_act; [apply keep_state|]. apply fine_call; [intros s; apply clear_into_reach|]. intros _. apply fine_yield. destruct fr; auto with fine.
Qed.
Lemma fine_execute name i c t : fine P (g_execute O name i c t).
Proof.
  unfold g_execute. apply fine_act; [apply keep_state|]. apply fine_call; [|intros _; auto with fine].
  intros s. destruct c; try apply reach_refl. apply RO.
Qed.
Lemma fine_modify name i c bs t : fine P (g_modify name i c bs t).
Proof.
  unfold g_modify. apply fine_act; [apply keep_state|]. apply fine_record. apply fine_call; [apply modify_call_reach|intros _; auto with fine].
Qed.
Lemma fine_modreq name i c bs t : fine P (g_modreq name i c bs t).
Proof.
  unfold g_modreq. apply fine_act; [apply keep_state|]. apply fine_get. intros s. apply fine_yield. apply fine_record. apply fine_call; [apply modify_call_reach|intros _; auto with fine].
Qed.
Lemma fine_overwrite name i c bs t : fine P (g_overwrite name i c bs t).
Proof.
  unfold g_overwrite. apply fine_act; [apply keep_state|]. apply fine_get. intros s. apply fine_yield. apply fine_record. apply fine_call; [apply create_call_reach|intros _; auto with fine].
Qed.
Lemma fine_setgoal name i c bs t : fine P (g_setgoal name i c bs t).
Proof.
  unfold g_setgoal. apply fine_gseq; [apply fine_clear|]. apply fine_get. intros s. apply fine_yield. apply fine_record. apply fine_call; [apply create_call_reach|intros _; auto with fine].
Qed.
Lemma fine_retrieve name i c bs t : fine P (g_retrieve O name i c bs t).
Proof.
  unfold g_retrieve. apply fine_yield. apply fine_call.
  - intros s. unfold on_buf. destruct (nth_error (bufs (sw s)) i) as [b|] eqn:E; [|apply reach_refl].
    destruct c; try apply reach_refl. destruct (oretr O s i) as [p act]. apply retrieve_reach. exact E.
  - intros [got lat]. cbv zeta. cbn [fst snd]. apply fine_yield. apply fine_gseq; [|apply fine_record; auto with fine].
    destruct got as [ch|]; auto with fine. destruct (truthy (VChunk ch)); auto with fine. apply fine_yield. apply fine_call; [|intros _; auto with fine].
    intros s. apply add_reach.
Qed.
Lemma fine_find name i c bs t : fine P (g_find O name i c bs t).
Proof.
  unfold g_find. apply fine_yield. apply fine_call; [intros s; apply RO|]. intros r. apply fine_gseq; auto with fine.
  destruct r as [[ch stim]|]; auto with fine. destruct (truthy (VChunk ch)); auto with fine. apply fine_gseq; [apply fine_clear|].
  apply fine_call; [intros s; apply add_reach|intros _; auto with fine].
Qed.
Lemma fine_encode name i ch t x site : fine P (g_encode name i ch t x site).
Proof.
  unfold g_encode. apply fine_act; [apply keep_state|]. apply fine_act; [apply keep_focus|]. apply fine_gseq; [apply fine_clear|].
  apply fine_call; [intros s; apply add_reach|intros _; auto with fine].
Qed.
Lemma fine_viscont name i ch bs t times site : fine P (g_viscont O name i ch bs t times site).
Proof.
  unfold g_viscont. destruct times as [[enc prep] exe]. apply fine_act; [apply keep_attrs|]. apply fine_get. intros s. cbv zeta.
  apply fine_act; [apply keep_mvt|]. apply fine_yield. apply fine_act; [apply keep_focus|]. apply fine_yield. apply fine_gseq; auto 6 with fine.
  destruct (Qle_bool enc (prep + exe)); [apply fine_ret|]. apply fine_call; [intros s'; apply RO|]. intros [[x [[e2 y] z]] w]. apply fine_encode.
Qed.
Lemma fine_shift name i c bs t : fine P (g_shift O name i c bs t).
Proof.
  unfold g_shift. apply fine_call; [intros s; apply RO|]. intros [[ch [[enc prep] exe]] site]. apply fine_act; [apply keep_attrs|]. apply fine_yield.
  apply fine_gseq; [destruct (Qle_bool enc prep); [apply fine_encode|apply fine_ret]|]. cbv zeta. apply fine_yield.
  apply fine_gseq; [destruct (_ && _)%bool; [apply fine_encode|apply fine_ret]|]. apply fine_cont. apply fine_viscont.
Qed.
Lemma fine_visual name i c bs t : fine P (g_visual O name i c bs t).
Proof.
  unfold g_visual. destruct c; try apply fine_raise. destruct (resolve_slots bs true _) as [args|]; [|apply fine_raise].
  destruct (dget args "cmd") as [[]|]; try apply fine_raise. pose proof (fine_shift name i (CChunk c) bs t) as F. 
  assert (K : fine P (GAct (set_attend i false) (GAct (set_state i "free") (GYield (ev t name (WText "VISUAL STOPPED FROM AUTOMATIC BUFFERING AT ITS CURRENT FOCUS")) GRet)))) by auto with fine.
  destruct (vvals w) as [| |x|]; try apply fine_raise; try apply fine_ret.
  repeat match goal with |- context[match ?z with _ => _ end] => is_var z; destruct z; try exact F; try exact K; try apply fine_raise; try apply fine_ret end.
Qed.
Lemma fine_motorcont name i k t p : (exists v, vvals k = VStr v /\ known_key v) -> fine P (g_motorcont name i k t p).
Proof.
  intros (v & V & Kv). unfold g_motorcont. apply fine_get. intros s. cbv zeta. repeat (first [apply fine_act; [first [apply keep_attrs|apply keep_mlast|idtac]|] | apply fine_yield | apply fine_ret]).
  - intros s'. apply same; auto. cbn. intros u U. apply ChunkMatch.set_add_inv in U. destruct U as [U| ->]; [auto|]. right. exists v. auto.
  - intros s'. apply keep_mlast.
Qed.
Lemma fine_motor name i c bs t : fine P (g_motor name i c bs t).
Proof.
  unfold g_motor. destruct c as [o| | |]; try apply fine_raise. apply fine_call_if; [intros s; apply motor_reach|]. intros s0 k K. apply fine_get. intros s. cbv zeta.
  apply fine_act; [destruct (_ || _)%bool; [|auto]; intros s'; apply same; auto; discriminate|]. apply fine_act; [apply keep_attrs|].
  apply fine_yield. apply fine_yield. apply fine_cont. apply fine_motorcont.
  destruct (motor_create (wreg (sw s0)) o bs) as [[r' k']|e] eqn:M; [|discriminate]. injection K as ->. eapply create_known. exact M.
Qed.
Lemma fine_start m name i c bs t : fine P (start O m name i c bs t).
Proof.
  destruct m; cbn [start]; [apply fine_extra|apply fine_modify| |apply fine_execute|apply fine_clear|apply fine_overwrite|apply fine_modreq].
  unfold g_request. apply fine_act; [apply keep_state|]. apply fine_get. intros s. destruct (nth_error _ i) as [b|]; [|apply fine_raise].
  destruct (bkind b); [apply fine_setgoal|apply fine_retrieve|apply fine_visual|apply fine_find|apply fine_motor].
Qed.
Lemma fine_autobuf name i stims t : fine P (g_autobuffer O name i stims t).
Proof.
  unfold g_autobuffer. apply fine_act; [apply keep_attrs|]. apply fine_call; [intros s; apply RO|]. intros [ch x]. cbv zeta. cbn [fst snd].
  apply fine_yield. apply fine_act; [apply keep_attrs|]. destruct ch as [ch|]; auto with fine. destruct (truthy _); auto with fine.
  apply fine_call; [intros s; apply auto_reach|intros _; auto with fine].
Qed.
Lemma fine_autosearch name i stims t : fine P (g_autosearch O name i stims t).
Proof.
  unfold g_autosearch. apply fine_act; [apply keep_state|]. apply fine_call; [intros s; destruct (qautosearch _); [apply RO|apply reach_refl]|].
  intros [[ch x]|]; auto with fine. destruct (truthy _); auto with fine. apply fine_call; [intros s; apply auto_reach|intros _; auto with fine].
Qed.
Lemma fine_proc p : fine P (proc_gen O p).
Proof. destruct p as [|n name m i c bs t|n name [|] i l t]; cbn [proc_gen]; [apply fine_ret|apply fine_start|apply fine_autobuf|apply fine_autosearch]. Qed.

(** *** Rules *)

Lemma keep_harvest names t : forall s, P s -> P (harvest names t s).
Proof.
  induction names as [|n names IH]; cbn [harvest]; [auto|]. intros s Hs. apply IH. destruct (dget (snames s) n); [|exact Hs]. revert Hs. apply same; auto.
Qed.
Lemma fine_actions t l : forall temp, fine P (actions O t temp l).
Proof.
  induction l as [|[key c] l IH]; intros temp; cbn [actions].
  - apply fine_get. intros s. destruct (qstrict _); [|apply fine_ret]. apply fine_act; [apply keep_harvest|apply fine_ret].
  - destruct key as [|code name]; [apply fine_raise|]. destruct (rhs_meth code) as [m|]; [|apply fine_raise]. apply fine_get. intros s.
    destruct (dget (snames s) name) as [i|]; [|apply fine_raise]. apply fine_note. apply fine_act; [apply keep_state|].
    destruct (interruptible m); [apply fine_act; [|apply IH]|apply fine_gseq; [apply fine_start|apply IH]]. intros s'. apply same; auto.
Qed.
Lemma fine_fire r ru t : fine P (g_fire O r ru t).
Proof.
  unfold g_fire, g_update. apply fine_act; [intros s; apply same; auto|]. apply fine_yield. apply fine_gseq.
  - apply fine_get. intros s. destruct (ordered_rhs _); [apply fine_actions|apply fine_raise].
  - apply fine_act; [|apply fine_ret]. intros s. destruct (slast s) as [l|]; [destruct (_ && _)%bool|]; apply same; auto.
Qed.
Lemma learned_keep s ru t s' : learned s ru t = Ok s' -> sp s' = sp s /\ sw s' = sw s /\ snames s' = snames s /\ sdm s' = sdm s /\ sprep s' = sprep s /\ skeys s' = skeys s.
Proof.
  unfold learned. destruct (rreward ru) as [rew|]; [|intros [= <-]; repeat split]. destruct (qlearn (sp s)); [|intros [= <-]; repeat split].
  destruct (modify_utilities _ _ _ _ _) as [rs|]; [|discriminate]. cbn. intros [= <-]. repeat split.
Qed.
Lemma fine_try r t : fine P (g_try O r t).
Proof.
  unfold g_try. apply fine_read. intros s Hs. destruct (dget (srules s) r) as [ru|]; [|apply (fine_raise P); exact Hs].
  destruct (lhs_test s (rlhs ru) (svars s)) as [[b|]|]; [|apply (fine_yield P); [apply fine_ret|exact Hs]|apply (fine_raise P); exact Hs].
  cbv zeta. destruct (learned (set_vars b s) ru t) as [s2|] eqn:L; [|apply (fine_raise P); exact Hs].
  destruct (learned_keep _ _ _ _ L) as (L1 & L2 & L3 & L4 & L5 & L6). assert (H2 : P s2) by (revert Hs; apply same; try assumption; rewrite ?L5, ?L6; auto).
  destruct (compile_now O s2) as [[[[n again] rs]|]|e]; cbn [stays].
  - assert (H3 : P (set_last (slast s2) None (set_order (sorder s2 ++ [n])%list (set_rules rs s2)))) by (revert H2; apply same; auto).
    split; [exact H3|]. apply fine_fire; exact H3.
  - assert (H3 : P (set_last (slast s2) None s2)) by (revert H2; apply same; auto). split; [exact H3|apply fine_fire; exact H3].
  - split; [exact H2|exact I].
Qed.
Lemma keep_use r t s : P s -> P (use_rule r t (set_rule (Some r) s)).
Proof. apply same; unfold use_rule; repeat match goal with |- context[match ?z with _ => _ end] => destruct z end; auto. Qed.
Lemma fine_procedural t : fine P (procedural O t).
Proof.
  unfold procedural. apply fine_act; [intros s; apply same; auto|]. apply fine_yield. apply fine_act; [intros s; apply same; auto|].
  apply fine_get. intros s. destruct (select O s) as [[r|]|]; [| |apply fine_raise].
  - apply fine_act; [apply keep_use|]. apply fine_yield. cbv zeta. apply fine_yield. apply fine_try.
  - apply fine_act; [intros s'; apply same; auto|]. destruct (remove_procedural _); [|apply fine_raise].
    apply fine_act; [intros s'; apply same; auto|]. auto with fine.
Qed.
Lemma aloof_fine g : aloof g -> fine P g.
Proof.
  induction g as [|e|e g IH|g IH|x g IH|f g IH|k IH]; cbn [aloof]; intros H.
  - apply fine_ret.
  - apply fine_raise.
  - apply fine_yield. auto.
  - apply fine_cont. auto.
  - apply fine_note. auto.
  - apply fine_act; [|apply IH; apply H]. intros s. destruct H as [H _]. destruct (H s) as (A & B & D & E & F & G). apply same; try assumption; [rewrite F; auto|]. intros u U. left. apply G. exact U.
  - apply fine_get. intros s. apply IH. apply H.
Qed.
End Gens.

(** ** The simulation *)

(** What a simulation needs to keep [P]: the generators that it runs belong to a class [Fine] of
    generators that keep [P], if environments satisfy [Ext]; the processes waiting to be started
    belong to a class [Wait]; and [P] survives what the simulation itself changes. *)
Record governed (P : st -> Prop) (Wait : proc -> Prop) (Fine : gen -> Prop) (O : oracle) (Ext : gen -> Prop) : Prop := MkGoverned {
  gv_put : forall s l n, P s -> Forall Wait l -> P (set_procs l n s);
  gv_keys : forall s, P s -> P (set_keys [] s);
  gv_waiting : forall s, P s -> Forall Wait (sprocs s);
  gv_auto : forall s i b, P s -> nth_error (bufs (sw s)) i = Some b -> bkind b = KLocation \/ bkind b = KVisual ->
    forall id name en stims t, Wait (PAuto id name en i stims t);
  gv_resume : forall g s s' ns o, Fine g -> P s -> resume g s = (s', ns, o) ->
    P s' /\ match o with OYield _ k => Fine k | OCont k => Fine k | _ => True end;
  gv_proc : forall p, Wait p -> Fine (proc_gen O p);
  gv_rules : forall t, Fine (procedural O t);
  gv_env : forall g, Ext g -> Fine g }.
Definition anyone (_ : proc) : Prop := True.
Lemma all_anyone l : Forall anyone l. Proof. apply Forall_forall. intros p _. exact I. Qed.
Lemma closed_governed P O : closed P -> respects O -> governed P anyone (fine P) O aloof.
Proof.
  intros C RO. split.
  - intros s l n H _. revert H. apply (cl_same P C); auto.
  - intros s. apply (cl_same P C); auto. intros u [].
  - intros s _. apply all_anyone.
  - intros s i b _ _ _ id name en stims t. exact I.
  - intros g s s' ns o F Hs. apply resume_fine; [exact Hs|apply F; exact Hs].
  - intros p _. exact (fine_proc P C O RO p).
  - exact (fine_procedural P C O RO).
  - exact (aloof_fine P C).
Qed.

Section Sims.
Variable P : st -> Prop.
Variable Wait : proc -> Prop.
Variable Fine : gen -> Prop.
Variable O : oracle.
Variable Ext : gen -> Prop.
Hypothesis C : governed P Wait Fine O Ext.

Definition good_val (v : val) : Prop := match v with XCont g => Fine g | _ => True end.
Definition good_out (o : outcome) : Prop := match o with Good v => good_val v | Bad _ => True end.
Definition good_code (c : code) : Prop :=
  match c with KLocal0 _ _ g | KLocal _ _ _ g | KEnv0 g | KEnvWait _ g => Fine g | _ => True end.
Definition good_evt (e : evt) : Prop := match evalue e with Some o => good_out o | None => True end.
Definition good_work (w : work) : Prop := match w with WRun _ o => good_out o | _ => True end.
Definition good_next (n : nxt) : Prop := match n with NWait c _ => good_code c | NDone v => good_val v end.
Record inv (S : sim) : Prop := MkInv {
  i_ss : P (ss S);
  i_evs : Forall good_evt (evs S);
  i_prs : Forall (fun r => good_code (pcode r)) (prs S);
  i_todo : Forall good_work (todo S);
  i_wait : Forall Wait (get_started S) }.

Definition holds {A} (Q : A -> Prop) (m : M A) : Prop :=
  forall S, inv S -> inv (fst (m S)) /\ match snd (m S) with inl a => Q a | inr _ => True end.
Definition any {A} (_ : A) : Prop := True.

Lemma h_ret {A} (Q : A -> Prop) a : Q a -> holds Q (ret a).
Proof. intros H S I. split; [exact I|exact H]. Qed.
Lemma h_throw {A} (Q : A -> Prop) t : holds Q (@throw A t).
Proof. intros S I. split; [exact I|exact Logic.I]. Qed.
Lemma h_bind {A B} (Q : A -> Prop) (R : B -> Prop) m k : holds Q m -> (forall a, Q a -> holds R (k a)) -> holds R (bind m k).
Proof.
  intros H K S I. unfold bind. specialize (H S I). destruct (m S) as [S' [a|t]]; cbn [fst snd] in H.
  - exact (K a (proj2 H) S' (proj1 H)).
  - split; [apply H|exact Logic.I].
Qed.
Lemma h_get {B} (R : B -> Prop) k : (forall S, inv S -> holds R (k S)) -> holds R (bind get k).
Proof. intros K S I. exact (K S I S I). Qed.
Lemma h_then {B} (R : B -> Prop) (m : M unit) k : holds any m -> holds R k -> holds R (bind m (fun _ => k)).
Proof. intros H K. apply h_bind with (Q := any); [exact H|auto]. Qed.
Lemma h_upd (f : sim -> sim) : (forall S, inv S -> inv (f S)) -> holds any (upd_ f).
Proof. intros H S I. split; [apply H; exact I|exact Logic.I]. Qed.
Lemma h_if {A} (Q : A -> Prop) (b : bool) m n : holds Q m -> holds Q n -> holds Q (if b then m else n).
Proof. destruct b; auto. Qed.

Lemma upd_ok {A} (Q : A -> Prop) l i x : Forall Q l -> Q x -> Forall Q (upd l i x).
Proof. intros H X. revert i. induction H as [|y l Y H IH]; intros [|i]; cbn; constructor; auto. Qed.
Lemma at_ok {A} (Q : A -> Prop) l i x : Forall Q l -> nth_error l i = Some x -> Q x.
Proof. intros H E. rewrite Forall_forall in H. apply H. eapply nth_error_In. exact E. Qed.

(** What is not looked at by [inv]. *)
Lemma inv_same S S' : ss S' = ss S -> evs S' = evs S -> prs S' = prs S -> todo S' = todo S -> early S' = early S -> inv S -> inv S'.
Proof. intros A B D E F [I1 I2 I3 I4 I5]. split; [rewrite A|rewrite B|rewrite D|rewrite E|unfold get_started; rewrite F, A]; assumption. Qed.
Lemma inv_ss S s : P s -> inv S -> inv (set_ss s S).
Proof.
  intros A [I1 I2 I3 I4 I5]. split; try assumption. unfold get_started in *. cbn [early set_ss ss]. destruct (early S); [exact I5|].
  apply (gv_waiting P Wait Fine O Ext C). exact A.
Qed.
Lemma h_same f : (forall S, ss (f S) = ss S /\ evs (f S) = evs S /\ prs (f S) = prs S /\ todo (f S) = todo S /\ early (f S) = early S) -> holds any (upd_ f).
Proof. intros H. apply h_upd. intros S. destruct (H S) as (A & B & D & E & F). apply inv_same; assumption. Qed.
Lemma h_early : holds any (upd_ (set_early None)).
Proof.
  apply h_upd. intros S [I1 I2 I3 I4 I5]. split; try assumption. exact (gv_waiting P Wait Fine O Ext C _ I1).
Qed.

Lemma h_mk r v d cbs : (match v with Some o => good_out o | None => True end) -> holds any (mk_event r v d cbs).
Proof.
  intros V S [I1 I2 I3 I4 I5]. split; [|exact Logic.I]. split; try assumption. cbn. apply Forall_app. split; [exact I2|]. constructor; [exact V|constructor].
Qed.
Lemma h_new r : holds any (new_event r). Proof. apply h_mk. exact I. Qed.
Lemma h_schedule pr d e : holds any (schedule pr d e). Proof. apply h_same. auto. Qed.
Lemma h_event e f : (forall x, good_evt x -> good_evt (f x)) -> holds any (set_event e f).
Proof.
  intros F. apply h_upd. intros S I. destruct (nth_error (evs S) e) as [x|] eqn:E; [|exact I].
  destruct I as [I1 I2 I3 I4 I5]. split; try assumption. apply upd_ok; [exact I2|]. apply F. eapply at_ok; [exact I2|exact E].
Qed.
Lemma h_succeed e : holds any (succeed e).
Proof. apply h_get. intros S _. apply h_if; [apply h_throw|]. apply h_then; [apply h_event; intros x _; exact I|apply h_schedule]. Qed.
Lemma h_timeout d : holds any (timeout d).
Proof.
  unfold timeout. apply h_if; [apply h_throw|]. apply h_get. intros S _. apply h_bind with (Q := any); [apply h_mk; exact I|]. intros e _.
  apply h_then; [apply h_schedule|apply h_ret; exact I].
Qed.
Lemma h_spawn c : good_code c -> holds any (spawn c).
Proof.
  intros G. apply h_get. intros S _. cbv zeta. apply h_bind with (Q := any); [apply h_new|]. intros own _. apply h_bind with (Q := any); [apply h_mk; exact I|]. intros ini _.
  apply h_then; [|apply h_then; [apply h_schedule|apply h_ret; exact I]]. apply h_upd. intros S' [I1 I2 I3 I4 I5]. split; try assumption.
  cbn. apply Forall_app. split; [exact I3|]. constructor; [exact G|constructor].
Qed.
Lemma h_interrupt a p : holds any (interrupt a p).
Proof.
  apply h_get. intros S _. apply h_if; [apply h_throw|]. apply h_if; [apply h_throw|]. apply h_bind with (Q := any); [apply h_mk; exact I|]. intros e _. apply h_schedule.
Qed.
Lemma h_addcb e c : holds any (add_cb e c). Proof. apply h_event. auto. Qed.
Lemma h_defuse e : holds any (defuse e). Proof. apply h_event. auto. Qed.
Lemma h_check c e : holds any (check c e).
Proof.
  apply h_get. intros S _. apply h_if; [apply h_ret; exact I|]. destruct (event_at e S) as [x|]; [|apply h_ret; exact I].
  destruct (evalue x) as [[v|t]|]; try apply h_succeed. apply h_then; [apply h_defuse|]. apply h_then; [apply h_event; intros y _; exact I|apply h_schedule].
Qed.
Lemma h_any a b : holds any (any_of a b).
Proof.
  assert (W : forall c e, holds any (watch c e)). { intros c e. apply h_get. intros S _. apply h_if; [apply h_check|apply h_addcb]. }
  apply h_bind with (Q := any); [apply h_new|]. intros c _. apply h_then; [apply W|]. apply h_then; [apply W|apply h_ret; exact I].
Qed.
Lemma h_activate e : holds any (activate e).
Proof.
  apply h_get. intros S _. destruct (ewhat e); try (apply h_ret; exact I); (apply h_if; [apply h_ret; exact I|]; apply h_if; [apply h_ret; exact I|apply h_succeed]).
Qed.
Lemma h_note e : holds any (note e). Proof. apply h_same. auto. Qed.
Lemma h_interact : holds any interact.
Proof.
  apply h_get. intros S _. apply h_if; [|apply h_ret; exact I]. apply h_then; [apply h_if; [apply h_succeed|apply h_ret; exact I]|].
  apply h_upd. intros S' J. apply inv_ss; [|exact J]. apply (gv_keys P Wait Fine O Ext C). apply J.
Qed.
Lemma h_local b n g : Fine g -> holds good_next (local_next b n g).
Proof.
  intros F S J. unfold local_next. pose proof (gv_resume P Wait Fine O Ext C g (ss S)) as R. destruct (resume g (ss S)) as [[s' ns] o].
  destruct (R s' ns o F (i_ss S J) eq_refl) as [R1 R2]. clear R. cbv zeta. assert (J' : inv (set_ss s' S)) by (apply inv_ss; assumption).
  destruct o as [|e|e k|k]; try (split; [exact J'|]; cbn; auto; destruct b; exact I).
  refine (h_bind any good_next (timeout _) _ (h_timeout _) _ _ J'). intros ev _. apply h_ret. exact R2.
Qed.
Lemma h_act n : holds any (act_of n).
Proof. apply h_get. intros S _. destruct (dget (acts S) n); [apply h_ret; exact I|apply h_throw]. Qed.
Lemma h_intextra a n : holds any (interrupt_extra a n).
Proof. apply h_get. intros S _. destruct (dget (extras S) n); [apply h_interrupt|apply h_throw]. Qed.
Lemma h_launch a pr : holds any (launch a pr).
Proof.
  destruct pr as [|id n m i c bs t|id n e i l t]; cbn [launch]; [apply h_throw| |];
    (apply h_bind with (Q := any); [apply h_act|]; intros ev _; apply h_get; intros S _; apply h_if;
     [destruct (dget (inter S) n); [|apply h_ret; exact I]; apply h_if; [apply h_ret; exact I|]; apply h_then; [apply h_same; auto|apply h_intextra]
     |apply h_then; [first [apply h_if; [apply h_same; auto|apply h_ret; exact I]|apply h_ret; exact I]|apply h_succeed]]).
Qed.
Lemma h_launches a l : holds any (launch_all a l).
Proof. induction l as [|x l IH]; cbn [launch_all]; [apply h_ret; exact I|]. apply h_then; [apply h_launch|exact IH]. Qed.
Lemma h_zero k : holds good_next (zero k).
Proof. apply h_bind with (Q := any); [apply h_timeout|]. intros e _. apply h_ret. exact I. Qed.
Lemma inv_put l S : Forall Wait l -> inv S -> inv (put_started l S).
Proof.
  intros W J. unfold put_started. destruct (early S) eqn:E.
  - destruct J as [I1 I2 I3 I4 I5]. split; assumption.
  - apply inv_ss; [|exact J]. apply (gv_put P Wait Fine O Ext C); [apply J|exact W].
Qed.
Lemma h_put l : Forall Wait l -> holds any (upd_ (put_started l)).
Proof. intros W. apply h_upd. intros S J. apply inv_put; assumption. Qed.
Lemma remove_wait l : forall l', Forall Wait l -> remove_procedural l = Some l' -> Forall Wait l'.
Proof.
  induction l as [|p l IH]; intros l' W E; cbn [remove_procedural] in E; [discriminate|]. destruct (remove_procedural l) as [k|].
  - destruct p; injection E as <-; [exact (Forall_inv_tail W)| |]; (constructor; [exact (Forall_inv W)|apply IH; [exact (Forall_inv_tail W)|reflexivity]]).
  - destruct p; try discriminate E. injection E as <-. exact (Forall_inv_tail W).
Qed.
Lemma take_wait n l : forall p l', Forall Wait l -> take_proc n l = Some (p, l') -> Wait p /\ Forall Wait l'.
Proof.
  induction l as [|q l IH]; intros p l' W E; cbn [take_proc] in E; [discriminate|]. cbv zeta in E. destruct (String.eqb _ n).
  - injection E as <- <-. exact (conj (Forall_inv W) (Forall_inv_tail W)).
  - destruct (take_proc n l) as [[q' l'']|]; [|discriminate]. injection E as <- <-. destruct (IH q' l'' (Forall_inv_tail W) eq_refl) as [A B].
    split; [exact A|]. constructor; [exact (Forall_inv W)|exact B].
Qed.
Lemma h_wait c p : good_code c -> holds good_next (wait_for c p).
Proof. intros G. apply h_get. intros S _. apply h_ret. exact G. Qed.
Lemma h_procloop a : holds good_next (proc_loop a).
Proof.
  apply h_get. intros S J. destruct (remove_procedural _) as [l|] eqn:E; [|apply h_ret; exact I]. apply h_then; [apply h_put; exact (remove_wait _ _ (i_wait S J) E)|]. apply h_then; [apply h_launches|apply h_zero].
Qed.
Lemma h_extraloop n : holds good_next (extra_loop O n).
Proof.
  apply h_get. intros S J.
  assert (G : forall p l, Wait p -> Forall Wait l -> holds good_next (upd_ (put_started l) ;! let! ev := act_of n in let! S := get in (if trig S ev then ret tt else succeed ev) ;!
     let! pro := spawn (KLocal0 false n (proc_gen O p)) in wait_for (KExtraPro n pro) pro)).
  { intros p l Hp Hl. apply h_then; [apply h_put; exact Hl|]. apply h_bind with (Q := any); [apply h_act|]. intros ev _. apply h_get. intros S' _. apply h_then; [apply h_if; [apply h_ret; exact I|apply h_succeed]|].
    apply h_bind with (Q := any); [apply h_spawn; apply (gv_proc P Wait Fine O Ext C); exact Hp|]. intros pro _. apply h_wait. exact I. }
  destruct (take_proc n _) as [[p l]|] eqn:E; [destruct (take_wait _ _ _ _ (i_wait S J) E); destruct p; [apply h_throw|apply G; assumption|apply G; assumption]|].
  apply h_then; [apply h_same; auto|]. apply h_bind with (Q := any); [apply h_act|]. intros ev _. apply h_ret. exact I.
Qed.
Lemma h_auto a nb : holds any (auto a nb).
Proof.
  destruct nb as [n i]. unfold auto. apply h_get. intros S J0. cbv zeta. destruct (nth_error (bufs (sw (ss S))) i) as [b|] eqn:Eb; [|apply h_ret; exact I].
  match goal with |- context[match ?z with _ => _ end] => destruct z as [en|] eqn:Ek end; [|apply h_ret; exact I].
  assert (K : bkind b = KLocation \/ bkind b = KVisual) by (destruct (bkind b); try discriminate Ek; auto). clear Ek.
  pose proof (gv_auto P Wait Fine O Ext C (ss S) i b (i_ss S J0) Eb K) as W.
  destruct (xstim _) as [stims|]; [|apply h_throw]. apply h_then.
  { apply h_upd. intros S' J. apply inv_ss; [|exact J]. apply (gv_put P Wait Fine O Ext C); [apply J|]. apply (gv_waiting P Wait Fine O Ext C). apply J. }
  apply h_then. { apply h_upd. intros S' J. apply inv_put; [|exact J]. apply Forall_app. split; [apply J|]. constructor; [apply W|constructor]. }
  apply h_bind with (Q := any); [apply h_act|]. intros ev _. apply h_get. intros S' _. apply h_if.
  - destruct (dget (inter S') n); [|apply h_throw]. apply h_if; [apply h_ret; exact I|]. apply h_then; [apply h_same; auto|apply h_intextra].
  - apply h_then; [apply h_same; auto|apply h_succeed].
Qed.
Lemma h_autos a l : holds any (auto_all a l).
Proof. induction l as [|x l IH]; cbn [auto_all]; [apply h_ret; exact I|]. apply h_then; [apply h_auto|exact IH]. Qed.
Lemma h_envloop e g : Fine g -> holds good_next (env_loop e g).
Proof.
  intros F. apply h_bind with (Q := any); [apply h_spawn; exact I|]. intros pro _. apply h_get. intros S _. apply h_bind with (Q := any); [apply h_any|]. intros c _. apply h_ret. exact F.
Qed.
Lemma h_envnext g k : Fine g -> holds good_next (k None) -> (forall e g', Fine g' -> holds good_next (k (Some (e, g')))) -> holds good_next (env_next g k).
Proof.
  intros F K0 K1 S J. unfold env_next. pose proof (gv_resume P Wait Fine O Ext C g (ss S)) as R. destruct (resume g (ss S)) as [[s' ns] o].
  destruct (R s' ns o F (i_ss S J) eq_refl) as [R1 R2]. cbv zeta. assert (J' : inv (set_ss s' S)) by (apply inv_ss; assumption).
  destruct o as [|e|e g'|g']; [apply K0; exact J'|split; [exact J'|exact I]|apply K1; [exact R2|exact J']|split; [exact J'|exact I]].
Qed.
Lemma h_goon p c o : good_code c -> good_out o -> holds good_next (go_on O p c o).
Proof.
  intros G H. pose proof (gv_rules P Wait Fine O Ext C) as FP.
  destruct c, o as [v|t]; cbn [go_on]; try (apply h_ret; exact I); try apply h_throw; try (destruct t; apply h_throw).
  - apply h_get. intros S _. apply h_bind with (Q := any); [apply h_spawn; apply FP|]. intros pro _. apply h_wait. exact I.
  - apply h_then; [apply h_early|]. apply h_then; [|apply h_procloop]. apply h_if; [apply h_ret; exact I|]. apply h_bind with (Q := any); [apply h_new|]. intros ev _. apply h_same. auto.
  - apply h_zero.
  - destruct more; [|apply h_zero]. apply h_get. intros S _. apply h_bind with (Q := any); [apply h_spawn; apply FP|]. intros pro _. apply h_wait. exact I.
  - destruct more; apply h_throw.
  - apply h_extraloop.
  - apply h_bind with (Q := any); [apply h_new|]. intros ev _. apply h_then; [apply h_same; auto|apply h_extraloop].
  - destruct v as [| |g]; try apply h_extraloop. apply h_bind with (Q := any); [apply h_spawn; exact H|]. intros pro' _. apply h_wait. exact I.
  - destruct t; try apply h_throw. apply h_get. intros S _. apply h_then; [apply h_if; [apply h_ret; exact I|apply h_interrupt]|apply h_extraloop].
  - apply h_extraloop.
  - destruct t; try apply h_throw. apply h_extraloop.
  - apply h_local. exact G.
  - apply h_then; [apply h_note|]. apply h_then; [apply h_activate|]. apply h_then; [apply h_interact|]. apply h_local. exact G.
  - destruct t; try apply h_throw. apply h_ret. exact I.
  - apply h_envnext; [exact G|apply h_throw|]. intros e g' F. apply h_envloop. exact F.
  - apply h_get. intros S _. apply h_then.
    { apply h_if; [|apply h_ret; exact I]. apply h_bind with (Q := any); [apply h_new|]. intros ev _. apply h_then; [apply h_same; auto|apply h_interrupt]. }
    apply h_envnext; [exact G|apply h_ret; exact I|]. intros e g' F. apply h_get. intros S' _. apply h_then; [apply h_autos|apply h_envloop; exact F].
  - apply h_get. intros S _. apply h_if; [apply h_then; [apply h_activate|apply h_throw]|]. apply h_bind with (Q := any); [apply h_timeout|]. intros ev _. apply h_ret. exact I.
  - apply h_then; [apply h_note|]. apply h_then; [apply h_activate|apply h_ret; exact I].
  - destruct t; (apply h_then; [apply h_activate|]); try apply h_throw. apply h_ret. exact I.
Qed.

(** *** Steps *)

Lemma inv_exec m S : holds any m -> inv S -> inv (exec_ m S).
Proof. intros H J. exact (proj1 (H S J)). Qed.
Lemma inv_prc p f S : (forall r, good_code (pcode r) -> good_code (pcode (f r))) -> inv S -> inv (set_prc p f S).
Proof.
  intros F J. unfold set_prc. destruct (nth_error (prs S) p) as [r|] eqn:E; [|exact J]. destruct J as [I1 I2 I3 I4 I5]. split; try assumption.
  apply upd_ok; [exact I3|]. apply F. exact (at_ok _ _ _ _ I3 E).
Qed.
Lemma inv_todo l S : Forall good_work l -> inv S -> inv (set_todo l S).
Proof. intros F [I1 I2 I3 I4 I5]. split; assumption. Qed.
Lemma inv_hand p ev S : inv S -> inv (hand_over p ev S).
Proof.
  intros J. unfold hand_over, event_at. destruct (nth_error (evs S) ev) as [e|] eqn:E; [|exact J].
  pose proof (at_ok _ _ _ _ (i_evs S J) E) as GE. unfold good_evt in GE.
  assert (A : inv (set_prc p (fun r => MkPrc (pkind r) (pown r) ev (pcode r)) (exec_ (add_cb ev (CResume p)) S))).
  { apply inv_prc; [auto|]. apply inv_exec; [apply h_addcb|exact J]. }
  destruct (ecbs e); [destruct (evalue e); exact A|]. destruct (evalue e) as [o|]; [|exact A].
  apply inv_todo; [constructor; [exact GE|apply J]|]. apply inv_exec; [|exact J]. destruct o; [apply h_ret; exact I|apply h_defuse].
Qed.
Lemma inv_end p o S : good_out o -> inv S -> inv (end_process p o S).
Proof.
  intros G J. unfold end_process. apply inv_exec; [|apply inv_prc; [intros r _; exact I|exact J]]. apply h_then; [apply h_event; intros x _; exact G|apply h_schedule].
Qed.
Lemma inv_work w S : good_work w -> inv S -> inv (work_off O w S).
Proof.
  intros G J. destruct w as [ev [p|p|c]|p o|ev]; cbn [work_off].
  - unfold event_at. destruct (nth_error (evs S) ev) as [e|] eqn:E; [|exact J]. pose proof (at_ok _ _ _ _ (i_evs S J) E) as GE. unfold good_evt in GE.
    destruct (evalue e) as [o|]; [|exact J]. apply inv_todo; [constructor; [exact GE|apply J]|]. apply inv_exec; [|exact J]. destruct o; [apply h_ret; exact I|apply h_defuse].
  - destruct (ended p S); [exact J|]. destruct (nth_error (prs S) p) as [r|]; [|exact J]. cbv zeta.
    match goal with |- inv (set_todo (_ :: todo ?z) ?z) => assert (J' : inv z) end.
    { apply inv_exec; [|exact J]. apply h_event. auto. }
    apply inv_todo; [constructor; [exact I|apply J']|exact J'].
  - apply inv_exec; [apply h_check|exact J].
  - destruct (nth_error (prs S) p) as [r|] eqn:E; [|exact J]. pose proof (at_ok _ _ _ _ (i_prs S J) E) as GC. cbn beta in GC.
    pose proof (h_goon p (pcode r) o GC G S J) as [J' GN]. destruct (go_on O p (pcode r) o S) as [S' [[c ev|v]|t]]; cbn [fst snd] in *.
    + apply inv_hand. apply inv_prc; [intros r' _; exact GN|exact J'].
    + apply inv_end; [exact GN|exact J'].
    + apply inv_end; [exact I|exact J'].
  - destruct (event_at ev S) as [e|]; [|exact J]. destruct (evalue e) as [[v|t]|], (edefused e); try exact J. revert J. apply inv_same; reflexivity.
Qed.
Lemma inv_step S S' : inv S -> sim_step O S = Some S' -> inv S'.
Proof.
  intros J. unfold sim_step. destruct (dead S); [discriminate|]. destruct (todo S) as [|w l] eqn:T.
  - destruct (pop_min (heap S)) as [[q h]|]; [|discriminate]. cbv zeta.
    assert (J1 : inv (set_now (qtime q) (set_queue (eid S) h S))) by (revert J; apply inv_same; reflexivity).
    destruct (event_at (qev q) _) as [e|]; intros [= <-]; [|exact J1]. apply inv_todo.
    + apply Forall_app. split; [|constructor; [exact I|constructor]]. apply Forall_forall. intros w W. apply in_map_iff in W. destruct W as [c [<- _]]. exact I.
    + apply inv_exec; [|exact J1]. apply h_event. auto.
  - intros [= <-]. pose proof (i_todo S J) as F. rewrite T in F. apply inv_work; [exact (Forall_inv F)|]. apply inv_todo; [exact (Forall_inv_tail F)|exact J].
Qed.
Lemma inv_runs S S' : sim_runs O S S' -> inv S -> inv S'.
Proof. induction 1 as [|S S1 S2 R IH E]; [auto|]. intros J. eapply inv_step; [apply IH; exact J|exact E]. Qed.
Lemma inv_init t s env : P s -> (forall g, env = Some g -> Ext g) -> inv (sim_init t s env).
Proof.
  intros H A. unfold sim_init. apply inv_exec.
  - unfold initialise. apply h_bind with (Q := any); [apply h_spawn; exact I|]. intros _ _. apply h_then.
    { generalize (dkeys (snames s)). intros l. induction l as [|n l IH]; cbn [make_extras]; [apply h_ret; exact I|]. apply h_then; [|exact IH]. apply h_if; [apply h_ret; exact I|].
      apply h_bind with (Q := any); [apply h_spawn; exact I|]. intros p _. apply h_then; [apply h_same; auto|]. apply h_bind with (Q := any); [apply h_new|]. intros ev _. apply h_same. auto. }
    apply h_then; [apply h_bind with (Q := any); [apply h_new|]; intros ev _; apply h_same; auto|].
    destruct env as [g|]; [|apply h_ret; exact I]. apply h_bind with (Q := any); [apply h_spawn; apply (gv_env P Wait Fine O Ext C); apply A; reflexivity|]. intros _ _.
    apply h_bind with (Q := any); [apply h_new|]. intros ev _. apply h_same. auto.
  - split; [exact H| | | |]; repeat constructor.
Qed.
Lemma sim_governed t s env S : P s -> (forall g, env = Some g -> Ext g) -> sim_runs O (sim_init t s env) S -> P (ss S).
Proof. intros H A R. apply i_ss. eapply inv_runs; [exact R|]. apply inv_init; assumption. Qed.
End Sims.
Lemma sim_keeps P : closed P -> forall O, respects O -> forall t s env S, P s -> (forall g, env = Some g -> aloof g) ->
  sim_runs O (sim_init t s env) S -> P (ss S).
Proof. intros C O RO t s env S. apply (sim_governed P anyone (fine P) O aloof). apply closed_governed; assumption. Qed.

(** ** Relations between earlier and later states *)

Section Moves.
Variable R : st -> st -> Prop.
Hypothesis R_refl : forall s, R s s.
Hypothesis R_trans : forall s1 s2 s3, R s1 s2 -> R s2 s3 -> R s1 s3.

(** From [s] on the steps of [g] respect [R], whatever happens while [g] is suspended. *)
Fixpoint moves (g : gen) (s : st) {struct g} : Prop :=
  match g with
  | GRet => True
  | GRaise _ => True
  | GYield _ k => forall s', moves k s'
  | GCont k => forall s', moves k s'
  | GNote _ k => moves k s
  | GAct f k => R s (f s) /\ moves k (f s)
  | GGet k => moves (k s) s
  end.
Definition free (g : gen) : Prop := forall s, moves g s.
Lemma free_ret : free GRet. Proof. exact (fun s => I). Qed.
Lemma free_raise e : free (GRaise e). Proof. exact (fun s => I). Qed.
Lemma free_yield e k : free k -> free (GYield e k). Proof. intros H s s'. apply H. Qed.
Lemma free_cont k : free k -> free (GCont k). Proof. intros H s s'. apply H. Qed.
Lemma free_note n k : free k -> free (GNote n k). Proof. intros H s. apply H. Qed.
Lemma free_act f k : (forall s, R s (f s)) -> free k -> free (GAct f k). Proof. intros F H s. split; [apply F|apply H]. Qed.
Lemma free_get k : (forall s, free (k s)) -> free (GGet k). Proof. intros H s. apply (H s s). Qed.
Lemma resume_moves g : forall s s' ns o, moves g s -> resume g s = (s', ns, o) ->
  R s s' /\ match o with OYield _ k => free k | OCont k => free k | _ => True end.
Proof.
  induction g as [|e|e g IH|g IH|n g IH|f g IH|g IH]; intros s s' ns o H E; cbn [resume moves] in *.
  - injection E as <- <- <-. auto.
  - injection E as <- <- <-. auto.
  - injection E as <- <- <-. auto.
  - injection E as <- <- <-. auto.
  - destruct (resume g s) as [[s1 ns1] o1] eqn:E1. injection E as <- <- <-. exact (IH _ _ _ _ H E1).
  - destruct H as [H1 H2]. destruct (IH _ _ _ _ H2 E) as [H3 H4]. split; [eapply R_trans; eassumption|exact H4].
  - exact (IH _ _ _ _ _ H E).
Qed.
(** What a simulation needs to respect [R]. *)
Record guided (O : oracle) (Ext : gen -> Prop) : Prop := MkGuided {
  gd_same : forall s s', rely s s' -> sw s' = sw s -> sdm s' = sdm s -> (sprep s' = true -> sprep s = true) ->
    incl (skeys s') (skeys s) -> R s s';
  gd_proc : forall p, free (proc_gen O p);
  gd_rules : forall t, free (procedural O t);
  gd_env : forall g, Ext g -> free g }.
Lemma guided_governed O Ext s0 : guided O Ext -> governed (R s0) anyone free O Ext.
Proof.
  intros G. split.
  - intros s l n H _. eapply R_trans; [exact H|]. apply (gd_same O Ext G); auto using incl_refl. repeat split.
  - intros s H. eapply R_trans; [exact H|]. apply (gd_same O Ext G); auto; [repeat split|intros u []].
  - intros s _. apply all_anyone.
  - intros s i b _ _ _ id name en stims t. exact I.
  - intros g s s' ns o F Hs E. destruct (resume_moves g s s' ns o (F s) E) as [H K]. split; [eapply R_trans; eassumption|exact K].
  - intros p _. apply (gd_proc O Ext G).
  - apply (gd_rules O Ext G).
  - apply (gd_env O Ext G).
Qed.
(** Any two moments of a simulation. *)
Theorem sim_guided O Ext t s env S1 S2 : guided O Ext -> (forall g, env = Some g -> Ext g) ->
  sim_runs O (sim_init t s env) S1 -> sim_runs O S1 S2 -> R (ss S1) (ss S2).
Proof.
  intros G A H1 H2. pose proof (guided_governed O Ext s G) as V1. pose proof (guided_governed O Ext (ss S1) G) as V2.
  pose proof (inv_runs (R s) anyone free O Ext V1 _ _ H1 (inv_init (R s) anyone free O Ext V1 t s env (R_refl s) A)) as [_ I2 I3 I4 _].
  apply (i_ss (R (ss S1)) anyone free). apply (inv_runs (R (ss S1)) anyone free O Ext V2 _ _ H2). split; [apply R_refl|exact I2|exact I3|exact I4|apply all_anyone].
Qed.
End Moves.
(** From the beginning. *)
Theorem sim_invariant (P : st -> Prop) O Ext t s env S : guided (fun s s' => P s -> P s') O Ext -> (forall g, env = Some g -> Ext g) ->
  P s -> sim_runs O (sim_init t s env) S -> P (ss S).
Proof.
  intros G A H. apply (sim_governed P anyone (free (fun s s' => P s -> P s')) O Ext); [|exact H|exact A]. split.
  - intros s1 l n Hs _. revert Hs. apply (gd_same _ _ _ G); auto using incl_refl. repeat split.
  - intros s1. apply (gd_same _ _ _ G); auto; [repeat split|intros u []].
  - intros s1 _. apply all_anyone.
  - intros s1 i b _ _ _ id name en stims t1. exact I.
  - intros g s1 s2 ns o F Hs E. destruct (resume_moves (fun s s' => P s -> P s') (fun s => id) (fun s1 s2 s3 X Y Z => Y (X Z)) g s1 s2 ns o (F s1) E). auto.
  - intros p _. apply (gd_proc _ _ _ G).
  - apply (gd_rules _ _ _ G).
  - apply (gd_env _ _ _ G).
Qed.
