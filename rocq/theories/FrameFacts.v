(** A process changes no buffer but its own; a buffer that no rule acts upon is not changed. *)
From Coq Require Import Permutation.
From Verif Require Import Base BaseFacts Chunks DecMem Buffers BufferFacts Productions ProdSpec ProdFacts ActFacts HarvestFacts Sim SimSpec LiftFacts Compile CompileSpec CompileFacts CompileSame FrameSpec.
Local Open Scope string_scope.
Local Open Scope list_scope.
Local Open Scope nat_scope.

(** ** Calls of methods *)

Lemma os_refl i w : others_same i w w. Proof. intros j _. reflexivity. Qed.
Lemma os_trans i w1 w2 w3 : others_same i w1 w2 -> others_same i w2 w3 -> others_same i w1 w3.
Proof. intros A B j H. rewrite (B j H). apply A. exact H. Qed.
Lemma os_buf i w b : others_same i w (set_buf w i b). Proof. intros j H. apply upd_other. exact H. Qed.
Lemma os_same i w w' : bufs w' = bufs w -> others_same i w w'. Proof. intros H j _. rewrite H. reflexivity. Qed.
Lemma os_upd i w w' b : bufs w' = upd (bufs w) i b -> others_same i w w'. Proof. intros H j Hj. rewrite H. apply upd_other. exact Hj. Qed.
Lemma clear_own w i b t h : others_same i w (fst (clear_buf w i b t h)).
Proof.
  assert (G : others_same i w (fst (match bdata b with [] => (w, Ok tt) | c :: rest =>
      match (match h with Some m => Some m | None => bdm b end) with
      | None => (w, Err EAttr)
      | Some m => match nth_error (mems w) m with
          | None => (w, Err EAttr)
          | Some dm => (set_buf (set_mem_at w m (dm_add dm c t)) i (set_data b rest), Ok tt) end end end))).
  { destruct (bdata b) as [|c rest]; [apply os_refl|]. destruct (match h with Some m => Some m | None => bdm b end) as [m|]; [|apply os_refl].
    destruct (nth_error (mems w) m); [|apply os_refl]. eapply os_upd. reflexivity. }
  unfold clear_buf. destruct (bkind b); try exact G. apply os_buf.
Qed.
Lemma add_own w i b x t h st0 : others_same i w (fst (add_buf w i b x t h st0)).
Proof.
  unfold add_buf. pose proof (clear_own w i b t h) as K. destruct (clear_buf w i b t h) as [w1 [u|e]]; cbn [fst] in K.
  - destruct (bkind b); destruct x; cbn [base_add fst]; try apply os_refl; try apply os_buf; (eapply os_trans; [exact K|apply os_buf]).
  - destruct (bkind b); destruct x; cbn [base_add fst]; try apply os_refl; try apply os_buf; exact K.
Qed.
Lemma modify_own w i b o bs x : others_same i w (fst (modify_buf w i b o bs x)).
Proof.
  unfold modify_buf. destruct (bdata b) as [|c rest]; [apply os_refl|]. cbv zeta. destruct (resolve_slots bs true _) as [mods|]; [|apply os_buf].
  destruct (mk_chunk _ _ _) as [[r' c']|]; [|apply os_buf]. cbn [fst]. eapply os_upd. reflexivity.
Qed.
Lemma create_own w i b o bs : others_same i w (fst (create_buf w i b o bs)).
Proof.
  unfold create_buf. destruct (bkind b); try apply os_refl. destruct (resolve_slots bs true _) as [args|]; [|apply os_refl].
  destruct (mk_chunk _ _ _) as [[r' c']|]; [|apply os_refl]. eapply os_upd. reflexivity.
Qed.
Lemma retrieve_own w i b p act t o bs x : others_same i w (fst (retrieve_buf w i b p act t o bs x)).
Proof.
  unfold retrieve_buf. destruct (bkind b); try apply os_refl. destruct (request _ o bs) as [[r' pat]|]; [|apply os_refl]. cbv zeta.
  destruct (match bdm b with Some m => match nth_error (mems w) m with Some dm => Some (m, dm) | None => None end | None => None end) as [[m dm]|]; [|apply os_same; reflexivity].
  destruct (retrieve_loop _ _ _ _ _ _ _ _ _ _) as [r|]; [|apply os_same; reflexivity]. eapply os_upd. reflexivity.
Qed.
Lemma on_own {A} s i (f : buffer -> world * res A) : (forall b, others_same i (sw s) (fst (f b))) -> others_same i (sw s) (fst (on_buf s i f)).
Proof. intros H. unfold on_buf. destruct (nth_error (bufs (sw s)) i); [apply H|apply os_refl]. Qed.
Lemma clear_into_own s i name opt t : others_same i (sw s) (fst (clear_into s i name opt t)).
Proof.
  apply on_own. intros b. pose proof (fun h => clear_own (sw s) i b t h) as R.
  assert (G : others_same i (sw s) (fst (match clear_buf (sw s) i b t None with
        | (w, Err EAttr) =>
            match sdm s with
            | [(_, m)] => clear_buf (sw s) i b t (Some m)
            | _ => if opt then (sw s, Err EKey)
                else match dget (sdm s) name with Some m => clear_buf (sw s) i b t (Some m) | None => (sw s, Err EActr) end
            end
        | r => r end))).
  { pose proof (R None) as R0. destruct (clear_buf (sw s) i b t None) as [w [u|[]]]; try exact R0.
    destruct (sdm s) as [|[x m] [|]]; [destruct opt; [apply os_refl|]; destruct (dget _ name); [apply R|apply os_refl]|apply R|].
    destruct opt; [apply os_refl|]. destruct (dget _ name); [apply R|apply os_refl]. }
  destruct (bkind b); try exact G. apply os_refl.
Qed.
Lemma modify_call_own i c bs s : others_same i (sw s) (fst (modify_call i c bs s)).
Proof.
  apply on_own. intros b. destruct c; try (destruct (bkind b); apply modify_own); (destruct (bdata b); [apply os_refl|apply os_buf]).
Qed.
Lemma create_call_own i c bs s : others_same i (sw s) (fst (create_call i c bs s)).
Proof. unfold create_call. destruct (sdm s); [apply os_refl|]. apply on_own. intros b. destruct (bkind b), c; try apply os_refl. apply create_own. Qed.

(** ** Processes *)

(** What a process of buffer [i] changes. *)
Definition local (i : nat) (s s' : st) : Prop :=
  rely s s' /\ sprocs s' = sprocs s /\ others_same i (sw s) (sw s') /\ forall j, j <> i -> nth_error (smods s') j = nth_error (smods s) j.
Lemma rely_refl s : rely s s. Proof. repeat split. Qed.
Lemma local_refl i s : local i s s. Proof. split; [apply rely_refl|]. split; [reflexivity|]. split; [apply os_refl|auto]. Qed.
Lemma local_trans i s1 s2 s3 : local i s1 s2 -> local i s2 s3 -> local i s1 s3.
Proof.
  intros (A & B & D & E) (A' & B' & D' & E'). split.
  { destruct A as (R1 & R2 & R3 & R4 & R5 & R6), A' as (Q1 & Q2 & Q3 & Q4 & Q5 & Q6). repeat split; congruence. }
  split; [congruence|]. split; [eapply os_trans; eassumption|]. intros j H. rewrite (E' j H). apply E. exact H.
Qed.
Lemma local_same i s s' : rely s s' -> sprocs s' = sprocs s -> sw s' = sw s -> smods s' = smods s -> local i s s'.
Proof. intros A B D E. split; [exact A|]. split; [exact B|]. split; [rewrite D; apply os_refl|]. rewrite E. auto. Qed.
Lemma local_world i s w : others_same i (sw s) w -> local i s (set_w w s).
Proof. intros H. split; [repeat split|]. split; [reflexivity|]. split; [exact H|auto]. Qed.
Lemma local_mods i s m : local i s (set_mods (upd (smods s) i m) s).
Proof. split; [repeat split|]. split; [reflexivity|]. split; [apply os_refl|]. intros j H. apply upd_other. exact H. Qed.
Lemma local_attrs i l s : local i s (set_attrs i l s).
Proof. unfold set_attrs. destruct (nth_error (smods s) i); [apply local_mods|apply local_refl]. Qed.
Lemma local_state i v s : local i s (set_state i v s). Proof. apply local_attrs. Qed.
Lemma local_focus i p s : local i s (set_focus i p s).
Proof. unfold set_focus. destruct (nth_error (smods s) i); [apply local_mods|apply local_refl]. Qed.
Lemma local_attend i p s : local i s (set_attend i p s).
Proof. unfold set_attend. destruct (nth_error (smods s) i); [apply local_mods|apply local_refl]. Qed.
Lemma local_mvt i p s : local i s (set_mvt i p s).
Proof. unfold set_mvt. destruct (nth_error (smods s) i); [apply local_mods|apply local_refl]. Qed.
Lemma local_mlast i p s : local i s (set_mlast i p s).
Proof. unfold set_mlast. destruct (nth_error (smods s) i); [apply local_mods|apply local_refl]. Qed.

Lemma free_gseq R g k : free R g -> free R k -> free R (gseq g k).
Proof.
  intros G K. intros s. specialize (G s). revert s G. induction g as [|e|e g IH|g IH|n g IH|f g IH|g IH]; intros s G; cbn [gseq moves] in *.
  - apply K.
  - exact I.
  - intros s'. apply IH. apply G.
  - exact G.
  - apply IH. exact G.
  - destruct G as [G1 G2]. split; [exact G1|apply IH; exact G2].
  - apply IH. exact G.
Qed.

Section Own.
Variable O : oracle.
Hypothesis OO : minds_own O.
Variable i : nat.
Let R := local i.
Lemma own_call {A} (f : st -> world * res A) k : (forall s, others_same i (sw s) (fst (f s))) -> (forall a, free R (k a)) -> free R (gcall f k).
Proof.
  intros F K s. cbn [gcall moves]. specialize (F s). destruct (f s) as [w [a|e]]; cbn [fst] in F; cbn [moves].
  - split; [apply local_world; exact F|apply K].
  - split; [apply local_world; exact F|exact I].
Qed.
Hint Resolve local_attrs local_state local_focus local_attend local_mvt local_mlast free_ret free_raise free_yield free_cont free_note free_act free_gseq free_get : own.
Lemma own_record f k : free R k -> free R (g_record f k).
Proof. intros K. apply free_get. intros s. destruct (f s); [|apply free_raise]. apply free_act; [|exact K]. intros s'. apply local_same; repeat split. Qed.
Lemma own_extra name c t : free R (g_extra name i c t).
Proof.
  unfold g_extra. apply free_act; [apply local_state|].
  assert (K : free R (GAct (set_state i "free") (GYield (ev t name (WText "EXTRA TEST ADDED")) GRet))) by (apply free_act; [apply local_state|auto with own]).
  destruct c; auto. apply free_act; [|exact K]. intros s. apply local_same; repeat split.
Qed.
Lemma own_clear name opt t fr : free R (g_clear name i opt t fr).
Proof.
  unfold g_clear. apply free_act; [apply local_state|]. apply own_call; [intros s; apply clear_into_own|]. intros _. apply free_yield.
  destruct fr; [apply free_act; [apply local_state|]|]; apply free_ret.
Qed.
Lemma own_tail v e : free R (GAct (set_state i v) (GYield e GRet)).
Proof. apply free_act; [apply local_state|]. apply free_yield, free_ret. Qed.
Lemma own_end v : free R (GAct (set_state i v) GRet).
Proof. apply free_act; [apply local_state|apply free_ret]. Qed.
Lemma own_execute name c t : free R (g_execute O name i c t).
Proof.
  unfold g_execute. apply free_act; [apply local_state|]. apply own_call; [|intros _; apply own_tail].
  intros s. destruct c; try apply os_refl. apply OO.
Qed.
Lemma own_modify name c bs t : free R (g_modify name i c bs t).
Proof.
  unfold g_modify. apply free_act; [apply local_state|]. apply own_record. apply own_call; [apply modify_call_own|intros _; apply own_tail].
Qed.
Lemma own_modreq name c bs t : free R (g_modreq name i c bs t).
Proof.
  unfold g_modreq. apply free_act; [apply local_state|]. apply free_get. intros s. apply free_yield. apply own_record. apply own_call; [apply modify_call_own|intros _; apply own_tail].
Qed.
Lemma own_overwrite name c bs t : free R (g_overwrite name i c bs t).
Proof.
  unfold g_overwrite. apply free_act; [apply local_state|]. apply free_get. intros s. apply free_yield. apply own_record. apply own_call; [apply create_call_own|intros _; apply own_tail].
Qed.
Lemma own_setgoal name c bs t : free R (g_setgoal name i c bs t).
Proof.
  unfold g_setgoal. apply free_gseq; [apply own_clear|]. apply free_get. intros s. apply free_yield. apply own_record. apply own_call; [apply create_call_own|intros _; apply own_tail].
Qed.
Lemma own_retrieve name c bs t : free R (g_retrieve O name i c bs t).
Proof.
  unfold g_retrieve. apply free_yield. apply own_call.
  - intros s. apply on_own. intros b. destruct c; try apply os_refl. destruct (oretr O s i) as [p act]. apply retrieve_own.
  - intros [got lat]. cbv zeta. cbn [fst snd]. apply free_yield. apply free_gseq; [|apply own_record; apply free_yield, free_ret].
    destruct got as [ch|]; [|apply own_end]. destruct (truthy (VChunk ch)); [|apply own_end]. apply free_yield. apply own_call; [|intros _; apply own_end].
    intros s. apply on_own. intros b. apply add_own.
Qed.
Lemma own_find name c bs t : free R (g_find O name i c bs t).
Proof.
  unfold g_find. apply free_yield. apply own_call; [intros s; apply OO|]. intros r. apply free_gseq; [|apply free_yield, free_ret].
  destruct r as [[ch stim]|]; [|apply own_end]. destruct (truthy (VChunk ch)); [|apply own_end]. apply free_gseq; [apply own_clear|].
  apply own_call; [intros s; apply on_own; intros b; apply add_own|intros _; apply own_end].
Qed.
Lemma own_encode name ch t x site : free R (g_encode name i ch t x site).
Proof.
  unfold g_encode. apply free_act; [apply local_state|]. apply free_act; [apply local_focus|]. apply free_gseq; [apply own_clear|].
  apply own_call; [intros s; apply on_own; intros b; apply add_own|intros _; apply own_tail].
Qed.
Lemma own_viscont name ch bs t times site : free R (g_viscont O name i ch bs t times site).
Proof.
  unfold g_viscont. destruct times as [[enc prep] exe]. apply free_act; [apply local_attrs|]. apply free_get. intros s. cbv zeta.
  apply free_act; [apply local_mvt|]. apply free_yield. apply free_act; [apply local_focus|]. apply free_yield. apply free_gseq.
  - destruct (Qle_bool enc (prep + exe)); [apply free_ret|]. apply own_call; [intros s'; apply OO|]. intros [[x [[e2 y] z]] w]. apply own_encode.
  - apply free_act; [apply local_attrs|]. apply free_act; [apply local_attend|]. apply free_ret.
Qed.
Lemma own_shift name c bs t : free R (g_shift O name i c bs t).
Proof.
  unfold g_shift. apply own_call; [intros s; apply OO|]. intros [[ch [[enc prep] exe]] site]. apply free_act; [apply local_attrs|]. apply free_yield.
  apply free_gseq; [destruct (Qle_bool enc prep); [apply own_encode|apply free_ret]|]. cbv zeta. apply free_yield.
  apply free_gseq; [destruct (_ && _)%bool; [apply own_encode|apply free_ret]|]. apply free_cont. apply own_viscont.
Qed.
Lemma own_visual name c bs t : free R (g_visual O name i c bs t).
Proof.
  unfold g_visual. destruct c; try apply free_raise. destruct (resolve_slots bs true _) as [args|]; [|apply free_raise].
  destruct (dget args "cmd") as [[]|]; try apply free_raise. pose proof (own_shift name (CChunk c) bs t) as F.
  assert (K : free R (GAct (set_attend i false) (GAct (set_state i "free") (GYield (ev t name (WText "VISUAL STOPPED FROM AUTOMATIC BUFFERING AT ITS CURRENT FOCUS")) GRet))))
    by (apply free_act; [apply local_attend|apply own_tail]).
  destruct (vvals w) as [| |x|]; try apply free_raise; try apply free_ret.
  repeat match goal with |- context[match ?z with _ => _ end] => is_var z; destruct z; try exact F; try exact K; try apply free_raise; try apply free_ret end.
Qed.
Lemma own_motorcont name k t p : free R (g_motorcont name i k t p).
Proof.
  unfold g_motorcont. apply free_get. intros s. cbv zeta. repeat (first [apply free_act; [first [apply local_attrs|apply local_mlast|idtac]|] | apply free_yield | apply free_ret]).
  - intros s'. apply local_same; repeat split.
  - intros s'. apply local_mlast.
Qed.
Lemma own_motor name c bs t : free R (g_motor name i c bs t).
Proof.
  unfold g_motor. destruct c as [o| | |]; try apply free_raise. apply own_call; [intros s; destruct (motor_create _ _ _) as [[r k]|]; apply os_same; reflexivity|].
  intros k. apply free_get. intros s. cbv zeta. apply free_act; [destruct (_ || _)%bool; intros s'; apply local_same; repeat split|]. apply free_act; [apply local_attrs|].
  apply free_yield. apply free_yield. apply free_cont. apply own_motorcont.
Qed.
Lemma own_start m name c bs t : free R (start O m name i c bs t).
Proof.
  destruct m; cbn [start]; [apply own_extra|apply own_modify| |apply own_execute|apply own_clear|apply own_overwrite|apply own_modreq].
  unfold g_request. apply free_act; [apply local_state|]. apply free_get. intros s. destruct (nth_error _ i) as [b|]; [|apply free_raise].
  destruct (bkind b); [apply own_setgoal|apply own_retrieve|apply own_visual|apply own_find|apply own_motor].
Qed.
Lemma auto_own s ch t x : others_same i (sw s) (fst (on_buf s i (fun b => match bdata b with
    | [] => add_buf (sw s) i b (AChunk ch) t None x | _ => modify_buf (sw s) i b ch nobind x end))).
Proof. apply on_own. intros b. destruct (bdata b); [apply add_own|apply modify_own]. Qed.
Lemma own_autobuf name stims t : free R (g_autobuffer O name i stims t).
Proof.
  unfold g_autobuffer. apply free_act; [apply local_attrs|]. apply own_call; [intros s; apply OO|]. intros [ch x]. cbv zeta. cbn [fst snd].
  apply free_yield. apply free_act; [apply local_attrs|]. destruct ch as [ch|]; [|apply free_ret]. destruct (truthy _); [|apply free_ret].
  apply own_call; [intros s; apply auto_own|intros _; apply free_yield, free_ret].
Qed.
Lemma own_autosearch name stims t : free R (g_autosearch O name i stims t).
Proof.
  unfold g_autosearch. apply free_act; [apply local_state|]. apply own_call; [intros s; destruct (qautosearch _); [apply OO|apply os_refl]|].
  intros [[ch x]|]; [|apply free_yield, free_ret]. destruct (truthy _); [|apply free_yield, free_ret]. apply own_call; [intros s; apply auto_own|intros _; apply free_yield, free_ret].
Qed.
End Own.

(** The buffer that a process belongs to. *)
Definition not_of (i : nat) (p : proc) : Prop := match p with PProc => True | PReq _ _ _ j _ _ _ => j <> i | PAuto _ _ _ j _ _ => j <> i end.
Lemma own_proc O p j : minds_own O -> (match p with PProc => True | PReq _ _ _ i _ _ _ => j = i | PAuto _ _ _ i _ _ => j = i end) -> free (local j) (proc_gen O p).
Proof.
  intros OO. destruct p as [|n name m i c bs t|n name [|] i l t]; cbn [proc_gen]; [intros _; apply free_ret|intros ->; apply own_start; exact OO|intros ->; apply own_autobuf; exact OO|intros ->; apply own_autosearch; exact OO].
Qed.

(** Hop by hop. *)
Lemma free_runs (Q : st -> st -> Prop) g s tr f (T : forall s1 s2 s3, Q s1 s2 -> Q s2 s3 -> Q s1 s3) : (forall s, Q s s) -> forall R, runs R g s tr f -> free Q g -> Forall (fun h => Q (hbefore h) (hafter h)) tr /\ (forall k, f = FCont k -> free Q k).
Proof.
  intros QR R. induction 1 as [g s|g s s' ns E|g s s' ns e E|g s s' ns k E|g s s' ns e k s'' tr f E Hr H IH]; intros F.
  - split; [constructor|discriminate].
  - destruct (resume_moves Q QR T g s s' ns _ (F s) E) as [A _]. split; [constructor; [exact A|constructor]|discriminate].
  - destruct (resume_moves Q QR T g s s' ns _ (F s) E) as [A _]. split; [constructor; [exact A|constructor]|discriminate].
  - destruct (resume_moves Q QR T g s s' ns _ (F s) E) as [A B]. split; [constructor; [exact A|constructor]|intros k' [= <-]; exact B].
  - destruct (resume_moves Q QR T g s s' ns _ (F s) E) as [A B]. destruct (IH B) as [IH1 IH2]. split; [constructor; [exact A|exact IH1]|exact IH2].
Qed.

(** ** A buffer that no rule acts upon *)

Lemma moves_stays (Q : st -> st -> Prop) (P : st -> Prop) g : (forall s s', Q s s' -> P s -> P s') -> forall s, moves Q g s -> P s -> stays P g s.
Proof.
  intros K. induction g as [|e|e g IH|g IH|x g IH|f g IH|k IH]; intros s H Hs; cbn [moves stays] in *; auto.
  destruct H as [H1 H2]. pose proof (K _ _ H1 Hs) as H3. split; [exact H3|apply IH; assumption].
Qed.
Lemma free_fine (Q : st -> st -> Prop) (P : st -> Prop) g : (forall s s', Q s s' -> P s -> P s') -> free Q g -> fine P g.
Proof. intros K F s Hs. exact (moves_stays Q P g K s (F s) Hs). Qed.

(** Every rule has the sides of an earlier one. *)
Definition no_new (rs rs' : dict rule) : Prop := forall n r', dget rs' n = Some r' -> exists r, dget rs n = Some r /\ rlhs r' = rlhs r /\ rrhs r' = rrhs r.
Lemma no_new_refl rs : no_new rs rs. Proof. intros n r H. eauto. Qed.
Lemma no_new_trans a b c : no_new a b -> no_new b c -> no_new a c.
Proof. intros H K n r E. destruct (K n r E) as (r1 & E1 & A & B). destruct (H n r1 E1) as (r2 & E2 & A' & B'). exists r2. repeat split; congruence. Qed.
Lemma no_new_util rs n r u : dget rs n = Some r -> no_new rs (dset rs n (set_util r u)).
Proof.
  intros N m ru E. rewrite dget_dset in E. destruct (String.eqb n m) eqn:Eq.
  - apply String.eqb_eq in Eq. subst m. injection E as <-. exists r. repeat split. exact N.
  - exists ru. auto.
Qed.
Lemma modify_no_new now reward alpha used : forall rules rules', modify_utilities now reward alpha used rules = Ok rules' -> no_new rules rules'.
Proof.
  unfold modify_utilities. induction used as [|[n ts] used IH]; intros rules rules' H; cbn [fold_left rbind fst snd] in H.
  - injection H as <-. apply no_new_refl.
  - assert (F : forall l e, fold_left (fun acc p => rs <- acc ;; match snd p with [] => Ok rs | ts => match dget rs (fst p) with None => Err EType
       | Some r => Ok (dset rs (fst p) (set_util r (fold_left (fun u t => learn alpha reward (now - t) u) ts (rutil r)))) end end) l (@Err (dict rule) e) = Err e)
      by (intro l; induction l as [|a0 l IHl]; intro e; cbn [fold_left rbind]; [reflexivity|apply IHl]).
    destruct ts as [|t ts]; [exact (IH _ _ H)|]. destruct (dget rules n) as [r|] eqn:E; [|rewrite F in H; discriminate].
    eapply no_new_trans; [|exact (IH _ _ H)]. apply no_new_util. exact E.
Qed.
Lemma learned_no_new s ru t s' : learned s ru t = Ok s' -> no_new (srules s) (srules s') /\ svars s' = svars s /\ sprocs s' = sprocs s /\ smods s' = smods s.
Proof.
  unfold learned. destruct (rreward ru) as [rew|]; [|intros [= <-]; split; [apply no_new_refl|auto]]. destruct (qlearn (sp s)); [|intros [= <-]; split; [apply no_new_refl|auto]].
  destruct (modify_utilities _ _ _ _ _) as [rs|] eqn:M; [|discriminate]. cbn. intros [= <-]. cbn. split; [exact (modify_no_new _ _ _ _ _ _ M)|auto].
Qed.

Section Frame.
Variable O : oracle.
Hypothesis OO : minds_own O.
Variable tie : string -> string -> bool.
Hypothesis CO : compiles_with O tie.
Variables (i0 : nat) (n0 : string) (b0 : buffer) (m0 : option modst) (p0 : params).
Hypothesis plain : bkind b0 <> KLocation /\ bkind b0 <> KVisual.
Hypothesis calm : qstrict p0 = true -> qcompile p0 = false /\ forall x, n0 <> String "=" x.

Record framed (s : st) : Prop := MkFramed {
  fr_buf : nth_error (bufs (sw s)) i0 = Some b0;
  fr_mod : nth_error (smods s) i0 = m0;
  fr_par : sp s = p0;
  fr_name : named s n0 i0;
  fr_rules : spared s n0;
  fr_lhs : qstrict p0 = true -> forall r ru, dget (srules s) r = Some ru -> ~ tested (rlhs ru) n0 /\ ~ In n0 (lhs_vars (rlhs ru));
  fr_vars : qstrict p0 = true -> ~ In n0 (var_keys (svars s));
  fr_procs : Forall (not_of i0) (sprocs s) }.

Lemma framed_same s s' : sp s' = sp s -> sw s' = sw s -> smods s' = smods s -> snames s' = snames s -> srules s' = srules s -> svars s' = svars s -> sprocs s' = sprocs s ->
  framed s -> framed s'.
Proof.
  intros A B D E F G H [I1 I2 I3 I4 I5 I6 I7 I8]. split; unfold named, spared; rewrite ?A, ?B, ?D, ?E, ?F, ?G, ?H; assumption.
Qed.
Lemma framed_local i s s' : i <> i0 -> local i s s' -> framed s -> framed s'.
Proof.
  intros N ((A & B & D & E & F & G) & H & K & M) [I1 I2 I3 I4 I5 I6 I7 I8].
  split; unfold named, spared; rewrite ?A, ?B, ?D, ?E, ?H; try assumption; [rewrite (K i0)|rewrite (M i0)]; auto.
Qed.
Lemma framed_state i v s : i <> i0 -> framed s -> framed (set_state i v s).
Proof. intros N. apply (framed_local i); [exact N|apply local_state]. Qed.
Lemma framed_procs s l n : framed s -> Forall (not_of i0) l -> framed (set_procs l n s).
Proof. intros [I1 I2 I3 I4 I5 I6 I7 I8] H. split; assumption. Qed.
Lemma framed_add name m i c bs t s : i <> i0 -> framed s -> framed (add_proc name m i c bs t s).
Proof.
  intros N F. apply framed_procs; [exact F|]. apply Forall_app. split; [apply fr_procs; exact F|]. constructor; [exact N|constructor].
Qed.
Lemma framed_harvest t names : forall s, ~ In n0 names -> framed s -> framed (harvest names t s).
Proof.
  induction names as [|n names IH]; intros s N F; cbn [harvest]; [exact F|]. apply IH; [intros K; apply N; right; exact K|].
  destruct (dget (snames s) n) as [i|] eqn:E; [|exact F]. apply framed_add; [|exact F]. intros ->. apply (fr_name s F) in E. apply N. left. exact E.
Qed.
Lemma start_fine m name i c bs t : i <> i0 -> fine framed (start O m name i c bs t).
Proof. intros N. apply (free_fine (local i)); [intros s s'; apply framed_local; exact N|apply own_start; exact OO]. Qed.
Lemma actions_fine t l : forall temp, (qstrict p0 = true -> ~ In n0 (var_keys temp)) -> (forall code c, ~ In (String code n0, c) l) -> fine framed (actions O t temp l).
Proof.
  induction l as [|[key c] l IH]; intros temp V L; cbn [actions].
  - apply fine_read. intros s Hs. destruct (qstrict (sp s)) eqn:E; [|exact I]. rewrite (fr_par s Hs) in E. cbn [stays]. split; [|exact I].
    apply framed_harvest; [exact (V E)|exact Hs].
  - destruct key as [|code name]; [apply fine_raise|]. destruct (rhs_meth code) as [m|]; [|apply fine_raise]. cbv zeta. apply fine_read. intros s Hs.
    destruct (dget (snames s) name) as [i|] eqn:E; [|exact I].
    assert (N : i <> i0). { intros ->. apply (fr_name s Hs) in E. subst name. apply (L code c). left. reflexivity. }
    assert (K : fine framed (actions O t (MkB (ddel (bpos temp) name) (bneg temp)) l)).
    { apply IH; [|intros code' c' H; apply (L code' c'); right; exact H]. intros Q H. apply (V Q). unfold var_keys in *. cbn [bpos bneg] in H. apply in_app_or in H. apply in_or_app.
      destruct H as [H|H]; [left|right; exact H]. apply ddel_keys in H. apply H. }
    revert s Hs E. intros s Hs _. apply fine_note; [|exact Hs]. apply fine_act; [intros s'; apply framed_state; exact N|].
    destruct (interruptible m); [apply fine_act; [intros s'; apply framed_add; exact N|exact K]|apply fine_gseq; [apply start_fine; exact N|exact K]].
Qed.
Lemma fire_fine r ru t : ~ mentioned (rrhs ru) n0 -> fine framed (g_fire O r ru t).
Proof.
  intros N. unfold g_fire, g_update. apply fine_act; [intros s; apply framed_same; reflexivity|]. apply fine_yield. apply fine_gseq.
  - apply fine_read. intros s Hs. destruct (ordered_rhs (rrhs ru)) as [l|] eqn:E; [|exact I]. apply actions_fine; [apply (fr_vars s Hs)| |exact Hs].
    intros code c H. destruct (ordered_rhs_staged _ _ E) as [_ Pm]. apply N. exists code. apply (Permutation_in _ Pm) in H. apply (in_map fst) in H. exact H.
  - apply fine_act; [|apply fine_ret]. intros s. destruct (slast s) as [l|]; [destruct (_ && _)%bool|]; apply framed_same; reflexivity.
Qed.
Lemma framed_rules s s' : no_new (srules s) (srules s') -> sp s' = sp s -> sw s' = sw s -> smods s' = smods s -> snames s' = snames s -> svars s' = svars s -> sprocs s' = sprocs s ->
  framed s -> framed s'.
Proof.
  intros F A B D E G H [I1 I2 I3 I4 I5 I6 I7 I8]. split; unfold named; rewrite ?A, ?B, ?D, ?E, ?G, ?H; try assumption.
  - intros r ru K. destruct (F r ru K) as (ru' & K' & _ & ->). exact (I5 r ru' K').
  - intros Q r ru K. destruct (F r ru K) as (ru' & K' & -> & _). exact (I6 Q r ru' K').
Qed.
Lemma try_fine r t : fine framed (g_try O r t).
Proof.
  unfold g_try. apply fine_read. intros s Hs. destruct (dget (srules s) r) as [ru|] eqn:Er; [|exact I].
  destruct (lhs_test s (rlhs ru) (svars s)) as [[b|]|] eqn:T; [|intros s' Hs'; exact I|exact I].
  cbv zeta.
  assert (H1 : framed (set_vars b s)).
  { destruct Hs as [I1 I2 I3 I4 I5 I6 I7 I8]. split; try assumption. intros Q. cbn [svars set_vars]. apply lhs_test_iff, conds_bound in T. destruct T as (_ & _ & T).
    intros H. unfold var_keys in H. apply in_app_or in H. destruct H as [H|H].
    - destruct (I6 Q r ru Er) as [X Y]. destruct (T n0 H) as [K|[K|K]]; [|exact (X K)|exact (Y K)]. apply (I7 Q). unfold var_keys. apply in_or_app. left. exact K.
    - apply in_map_iff in H. destruct H as (x & Ex & _). exact (proj2 (calm Q) x (eq_sym Ex)). }
  destruct (learned (set_vars b s) ru t) as [s2|] eqn:L; [|exact I].
  assert (H2 : framed s2).
  { destruct (learned_keep _ _ _ _ L) as (L1 & L2 & L3 & L4 & L5 & L6). destruct (learned_no_new _ _ _ _ L) as (M1 & M2 & M3 & M4).
    revert H1. apply framed_rules; assumption. }
  pose proof (fr_rules s Hs r ru Er) as N.
  destruct (compile_now O s2) as [[[[n again] rs]|]|e] eqn:C; cbn [stays].
  - assert (H3 : framed (set_last (slast s2) None (set_order (sorder s2 ++ [n])%list (set_rules rs s2)))).
    { destruct (qstrict p0) eqn:Q.
      { exfalso. unfold compile_now in C. rewrite (fr_par s2 H2), (proj1 (calm eq_refl)) in C. discriminate C. }
      destruct (compile_now_inv _ _ _ _ CO C) as (r1 & r2 & vals & _ & K). destruct H2 as [I1 I2 I3 I4 I5 I6 I7 I8]. split; try assumption; try (rewrite Q; discriminate).
      intros m rm E. cbn [srules set_last set_order set_rules] in E. pose proof (compile_exact _ _ _ _ _ _ _ _ K) as (_ & ru1 & ru2 & l & rr & G1 & G2 & _ & D).
      destruct again; destruct D as [(Ha & D1 & D2)|(Ha & D)]; try discriminate Ha.
      - destruct D as (old & G & _ & _ & ->). destruct (qlearn (sp s2)); [|exact (I5 m rm E)]. destruct (no_new_util _ _ _ _ G m rm E) as (o' & E' & _ & ->). exact (I5 m o' E').
      - destruct (string_dec m n) as [->|Nm].
        + destruct (compile_actions _ _ _ _ _ _ _ _ _ _ K G1 G2 E) as (_ & A & _). intros (code & Hc). destruct (A _ Hc) as [Hk|Hk].
          * apply (I5 r2 ru2 G2). exists code. exact Hk.
          * apply (I5 r1 ru1 G1). exists code. exact Hk.
        + rewrite D2, dget_dset_neq in E by congruence. exact (I5 m rm E). }
    split; [exact H3|]. intros s' Hs'. apply fire_fine; assumption.
  - assert (H3 : framed (set_last (slast s2) None s2)) by (revert H2; apply framed_same; reflexivity). split; [exact H3|apply fire_fine; assumption].
  - split; [exact H2|exact I].
Qed.
Lemma remove_not l : forall l', Forall (not_of i0) l -> remove_procedural l = Some l' -> Forall (not_of i0) l'.
Proof. apply remove_wait. Qed.
Lemma procedural_fine t : fine framed (procedural O t).
Proof.
  unfold procedural. apply fine_act.
  { intros s [I1 I2 I3 I4 I5 I6 I7 I8]. split; try assumption; [intros _ []|]. cbn [sprocs set_vars set_procs]. apply Forall_app. split; [exact I8|]. repeat constructor. }
  apply fine_yield. apply fine_act; [intros s; apply framed_same; reflexivity|].
  apply fine_read. intros s Hs. destruct (select O s) as [[r|]|]; [| |exact I].
  - revert s Hs. enough (K : forall q, fine framed (GAct (fun s => use_rule r t (set_rule (Some r) s))
        (GYield (ev t PROCEDURAL (WSelected r)) (let t' := (t + q)%Q in GYield (ev t' PROCEDURAL WUnknown) (g_try O r t'))))) by (intros s Hs; exact (K _ s Hs)).
    intros q. apply fine_act; [|apply fine_yield; cbv zeta; apply fine_yield, try_fine].
    intros s. apply framed_same; unfold use_rule; repeat match goal with |- context[match ?z with _ => _ end] => destruct z end; reflexivity.
  - destruct (remove_procedural (sprocs s)) as [l|] eqn:E; cbn [stays].
    + assert (H : framed (set_rule (last (map Some (sorder s)) None) s)) by (revert Hs; apply framed_same; reflexivity). split; [exact H|].
      split; [|intros s' _; exact I]. apply framed_procs; [exact H|]. eapply remove_not; [|exact E]. apply fr_procs. exact Hs.
    + split; [|exact I]. revert Hs. apply framed_same; reflexivity.
Qed.
Lemma shows_fine g : shows_only g -> fine framed g.
Proof.
  induction g as [|e|e g IH|g IH|x g IH|f g IH|k IH]; cbn [shows_only]; intros H.
  - apply fine_ret.
  - apply fine_raise.
  - apply fine_yield. auto.
  - apply fine_cont. auto.
  - apply fine_note. auto.
  - apply fine_act; [|apply IH; apply H]. intros s. destruct H as [H _]. destruct (H s) as [x ->]. apply framed_same; reflexivity.
  - apply fine_get. intros s. apply IH. apply H.
Qed.
Lemma framed_governed : governed framed (not_of i0) (fine framed) O shows_only.
Proof.
  split.
  - intros s l n. apply framed_procs.
  - intros s. apply framed_same; reflexivity.
  - exact fr_procs.
  - intros s i b F E K id name en stims t. cbn [not_of]. intros ->. rewrite (fr_buf s F) in E. injection E as <-. destruct plain, K; contradiction.
  - intros g s s' ns o F Hs. apply resume_fine; [exact Hs|apply F; exact Hs].
  - intros p W. destruct p as [|n name m i c bs t|n name en i l t].
    + apply fine_ret.
    + cbn [proc_gen]. apply start_fine. exact W.
    + apply (free_fine (local i)); [intros s s'; apply framed_local; exact W|]. exact (own_proc O (PAuto n name en i l t) i OO eq_refl).
  - exact procedural_fine.
  - exact shows_fine.
Qed.
End Frame.

Theorem sim_framed O tie t s env S n i b : minds_own O -> compiles_with O tie -> (forall g, env = Some g -> shows_only g) ->
  named s n i -> nth_error (bufs (sw s)) i = Some b -> bkind b <> KLocation -> bkind b <> KVisual ->
  spared s n -> unharvested s n -> (qstrict (sp s) = true -> qcompile (sp s) = false) -> sprocs s = [] -> svars s = nobind ->
  sim_runs O (sim_init t s env) S -> nth_error (bufs (sw (ss S))) i = Some b /\ nth_error (smods (ss S)) i = nth_error (smods s) i.
Proof.
  intros OO CO E N B K1 K2 Sp U Q Pr V R.
  assert (F : framed i n b (nth_error (smods s) i) (sp s) (ss S)).
  { refine (sim_governed _ _ _ _ _ (framed_governed O OO tie CO i n b (nth_error (smods s) i) (sp s) (conj K1 K2) _) t s env S _ E R).
    - intros H. split; [exact (Q H)|]. destruct U as [U|U]; [congruence|exact (proj2 U)].
    - split; try assumption; try reflexivity; [destruct U as [U|[U _]]; [congruence|exact (fun _ => U)]|rewrite V; intros _ []|rewrite Pr; constructor]. }
  split; apply F.
Qed.

(** Processes of one buffer. *)
Theorem start_local O R m name i c bs t s tr f : minds_own O -> runs R (start O m name i c bs t) s tr f ->
  Forall (fun h => others_same i (sw (hbefore h)) (sw (hafter h))) tr /\
  (forall k, f = FCont k -> forall R' s' tr' f', runs R' k s' tr' f' -> Forall (fun h => others_same i (sw (hbefore h)) (sw (hafter h))) tr').
Proof.
  intros OO H.
  assert (W : forall l, Forall (fun h => local i (hbefore h) (hafter h)) l -> Forall (fun h => others_same i (sw (hbefore h)) (sw (hafter h))) l).
  { intros l. apply Forall_impl. intros h L. apply L. }
  destruct (free_runs (local i) _ _ _ _ (local_trans i) (local_refl i) R H (own_start O OO i m name c bs t)) as [A B].
  split; [apply W; exact A|]. intros k E R' s' tr' f' H'.
  destruct (free_runs (local i) _ _ _ _ (local_trans i) (local_refl i) R' H' (B k E)) as [A' _]. apply W. exact A'.
Qed.
