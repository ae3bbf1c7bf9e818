(** The simulation runs one procedural process after another. *)
From Coq Require Import Lia Sorted.
From Verif Require Import Base BaseFacts Chunks DecMem Buffers BufferFacts Productions ProdSpec ProdFacts ActFacts CycleFacts LearnFacts Sim SimSpec SimFacts.
Local Open Scope string_scope.
Local Open Scope list_scope.
Local Open Scope nat_scope.

(** ** Generators of other processes *)

Lemma quiet_rule e : quiet e <-> rule_event e = false.
Proof. unfold quiet, rule_event. destruct (ewhat e); split; intros; try tauto; try discriminate; try (destruct H as [|[]]; discriminate); eauto. Qed.

Lemma outside_gseq g : forall k, outside g -> outside k -> outside (gseq g k).
Proof.
  induction g as [|e|e g IH|g IH|n g IH|f g IH|h IH]; cbn [gseq outside]; intros k Hg Hk; auto; destruct Hg; split; auto.
Qed.
Lemma outside_gcall {A} (f : st -> world * res A) k : (forall a, outside (k a)) -> outside (gcall f k).
Proof. intros H s. destruct (f s) as [w [a|e]]; cbn; repeat split; auto. Qed.
Lemma outside_record f k : outside k -> outside (g_record f k).
Proof. intros H s. destruct (f s); cbn; repeat split; auto. Qed.

Ltac outside_tac :=
  repeat (cbn [outside]; cbv beta zeta;
    first [ apply outside_gcall; intro | apply outside_record | apply outside_gseq | exact I | reflexivity
          | apply rely_attrs | apply rely_focus | apply rely_attend | apply rely_mvt | apply rely_mlast
          | match goal with |- _ /\ _ => split end
          | match goal with |- forall _ : st, _ => intro end
          | match goal with |- rely _ (set_state _ _ _) => apply rely_attrs end
          | match goal with |- rely _ (set_keys _ _) => unfold rely; repeat split; reflexivity end
          | match goal with |- rely _ (set_extra _ _) => unfold rely; repeat split; reflexivity end
          | match goal with |- rely _ ((if ?x then _ else _) _) => destruct x; unfold rely; repeat split; reflexivity end
          | match goal with |- rely _ (set_w _ _) => unfold rely; repeat split; reflexivity end
          | match goal with |- outside (match ?x with _ => _ end) => destruct x end
          | match goal with |- outside (match ?x with _ => _ end _) => destruct x end
          | match goal with |- outside (if ?x then _ else _) => destruct x end ]).

Lemma outside_start O m name i c bs t : outside (start O m name i c bs t).
Proof.
  destruct m; unfold start, g_extra, g_modify, g_execute, g_clear, g_overwrite, g_modreq, g_request, g_setgoal,
    g_find, g_visual, g_shift, g_viscont, g_encode, g_motor, g_motorcont, g_retrieve, g_clear; outside_tac.
Qed.
Lemma outside_proc O p : outside (proc_gen O p).
Proof.
  destruct p as [|id n m i c b t|id n enc i st t]; [exact I|apply outside_start|]. cbn [proc_gen]. destruct enc; [unfold g_autobuffer|unfold g_autosearch]; outside_tac.
Qed.

Lemma outside_resume g : forall s s' ns o, outside g -> resume g s = (s', ns, o) ->
  rely s s' /\ match o with OYield e k => quiet e /\ outside k | OCont k => outside k | _ => True end.
Proof.
  induction g as [|e|e g IH|g IH|n g IH|f g IH|h IH]; cbn [resume outside]; intros s s' ns o Hg H.
  1-4: inversion H; subst; split; auto; try apply rely_refl. 
  - destruct Hg as [He Hg]. split; [apply quiet_rule; exact He|exact Hg].
  - destruct (resume g s) as [[s1 ns1] o1] eqn:E. inversion H; subst. eauto.
  - destruct Hg as [Hf Hg]. destruct (IH _ _ _ _ Hg H) as [H1 H2]. split; [|exact H2].
    eapply rely_trans; [apply Hf|exact H1].
  - eapply IH; [apply Hg|exact H].
Qed.

(** Codes of processes other than the procedural one. *)
Definition tame (c : code) : Prop :=
  match c with
  | KLocal0 false _ g => outside g
  | KLocal false _ e g => quiet e /\ outside g
  | KEnv0 g | KEnvWait _ g => outside g
  | KEnvP0 e | KEnvP e => quiet e
  | KLocal0 true _ _ | KLocal true _ _ _ => False
  | _ => True
  end.
(** Codes of processes that are started by others than the main one. *)
Definition side (c : code) : Prop := tame c /\ ((exists n g, c = KLocal0 false n g) \/ (exists e, c = KEnvP0 e)).

Lemma side_local O n p : side (KLocal0 false n (proc_gen O p)).
Proof. split; [apply outside_proc|left; eauto]. Qed.

Lemma tri_ss x S (Q : unit -> sim -> Prop) : Inv S -> rely (ss S) x -> (forall S', Q tt S') -> tri side (upd_ (set_ss x)) S Q.
Proof. intros H R HQ. apply tri_upd; auto. Qed.
Lemma tri_note e S : Inv S -> now S = etime e -> quiet e -> tri side (note e) S (fun _ _ => True).
Proof.
  intros H E Hq. pose proof (tri2_note e S H E) as T. unfold tri2, tri, note, upd_ in *. destruct T as (H' & _).
  split; [exact H'|]. split; [|exact I]. constructor; try reflexivity; cbn.
  - exists [(now S, e)]. split; [reflexivity|]. constructor; [exact Hq|constructor].
  - intros ev x Hx. exists x. repeat split; auto.
  - intros ev x Hx. left. exists x. auto.
  - exists []. rewrite app_nil_r. auto.
  - apply rely_refl.
Qed.
Lemma frame_ss x S : rely (ss S) x -> frame side S (set_ss x S).
Proof. intros R. apply frame_same; try reflexivity. exact R. Qed.

(** [lands] and good codes. *)
Definition lands2 (k : option pkind_) (r : nxt) (S : sim) : Prop :=
  lands k r S /\ match r with NWait c _ => tame c | NDone (XCont g) => outside g | NDone _ => True end.

Lemma tri_local_next n g S : outside g -> Inv S -> tri side (local_next false n g) S (lands2 (Some (GLocal false n))).
Proof.
  intros Hg H. unfold tri, local_next. destruct (resume g (ss S)) as [[s' ns] o] eqn:E. destruct (outside_resume _ _ _ _ _ Hg E) as [R Ho].
  pose proof (Inv_ss s' S H) as H'. pose proof (frame_ss s' S R) as W.
  destruct o as [|x|e k|k]; [split; [exact H'|]; split; [exact W|split; exact I]|auto| |split; [exact H'|]; split; [exact W|]; split; [exists false, n; reflexivity|exact Ho]].
  assert (T : tri side (let! ev := timeout (etime e - now (set_ss s' S)) in ret (NWait (KLocal false n e k) ev)) (set_ss s' S) (lands2 (Some (GLocal false n)))).
  { eapply tri_bind; [apply tri_timeout with (Q := fun ev S' => role_at ev (RTime (etime e)) S' /\ processed ev S' = false); auto|].
    - intros ev S1 Rr P. split; [|exact P]. replace (etime e) with (now (set_ss s' S) + (etime e - now (set_ss s' S)))%Z by lia. exact Rr.
    - intros ev S1 H1 F1 [Rr P]. apply tri_ret; [exact H1|]. split; [|exact Ho]. cbn. repeat split; auto. eapply role_not_int; [exact Rr|discriminate]. }
  unfold tri in T. destruct (bind _ _ (set_ss s' S)) as [S' r]. destruct T as (T1 & T2 & T3).
  split; [exact T1|]. split; [eapply frame_trans; eauto|exact T3].
Qed.
Lemma tri_env_next g k S : outside g -> Inv S ->
  (forall r S', Inv S' -> frame side S S' -> (forall e g', r = Some (e, g') -> quiet e /\ outside g') -> tri side (k r) S' (lands2 (Some GEnv))) ->
  tri side (env_next g k) S (lands2 (Some GEnv)).
Proof.
  intros Hg H Hk. unfold tri, env_next. destruct (resume g (ss S)) as [[s' ns] o] eqn:E. destruct (outside_resume _ _ _ _ _ Hg E) as [R Ho].
  pose proof (Inv_ss s' S H) as H'. pose proof (frame_ss s' S R) as W.
  assert (G : forall r, (forall e g', r = Some (e, g') -> quiet e /\ outside g') ->
    let '(S', r0) := k r (set_ss s' S) in Inv S' /\ frame side S S' /\ match r0 with inl a => lands2 (Some GEnv) a S' | inr _ => True end).
  { intros r Hr. pose proof (Hk r _ H' W Hr) as T. unfold tri in T. destruct (k r (set_ss s' S)) as [S' r0]. destruct T as (T1 & T2 & T3).
    split; [exact T1|]. split; [eapply frame_trans; eauto|exact T3]. }
  destruct o as [|x|e k'|k']; try (split; [exact H'|]; split; [exact W|exact I]); apply G; [discriminate|].
  intros e0 g' [= <- <-]. exact Ho.
Qed.

Lemma tame_kind c k : kind_of c = k -> (k = Some GMain \/ exists n, k = Some (GExtra n)) -> tame c.
Proof. intros <- H. destruct c; cbn in *; try exact I; destruct H as [H|[n' H]]; discriminate. Qed.
Lemma tri_lands2 m k S : tri side m S (lands k) -> (k = Some GMain \/ exists n, k = Some (GExtra n)) -> tri side m S (lands2 k).
Proof.
  intros T Hk. eapply tri_conseq; [exact T|]. intros [c ev|v] S' _ L.
  - split; [exact L|]. destruct L as (K & _). eapply tame_kind; eauto.
  - split; [exact L|]. destruct v; cbn in *; auto. destruct L as (b & n & L). destruct Hk as [Hk|[n' Hk]]; congruence.
Qed.

Lemma env_loop_shape e g S S' r : env_loop e g S = (S', inl r) -> exists pro c, r = NWait (KEnvWait pro g) c.
Proof.
  unfold env_loop. unfold bind at 1. destruct (spawn _ S) as [S1 [a|t]]; [|discriminate]. unfold bind at 1. cbn [get].
  unfold bind at 1. destruct (any_of _ _ S1) as [S2 [c|t]]; [|discriminate]. cbn. intros [= <- <-]. eauto.
Qed.
Lemma tri_env_loop2 e g S : quiet e -> outside g -> Inv S -> hasenv S = true -> tri side (env_loop e g) S (lands2 (Some GEnv)).
Proof.
  intros Hq Hg H Hh. assert (T : tri side (env_loop e g) S (lands (Some GEnv))).
  { apply tri_env_loop; auto. split; [exact Hq|right; eauto]. }
  unfold tri in *. destruct (env_loop e g S) as [S' [r|t]] eqn:E; destruct T as (T1 & T2 & T3); split; auto; split; auto.
  destruct (env_loop_shape _ _ _ _ _ E) as (pro & c & ->). split; [exact T3|exact Hg].
Qed.

(** The codes that start the procedural process or belong to it. *)
Definition special (c : code) : bool := match c with KProc0 | KProcZero O | KLocal0 true _ _ | KLocal true _ _ _ => true | _ => false end.

Lemma go_on_side O p c k o ev S : Inv S -> kind_of c = k -> c <> KEnd -> fits S c ev -> (envy k -> hasenv S = true) ->
  (forall v t, o = Good v -> due c = Some t -> now S = t) -> special c = false -> tame c -> (forall g, o = Good (XCont g) -> outside g) ->
  tri side (go_on O p c o) S (lands2 k).
Proof.
  intros H Hk Hne Hf He Hd Hs Ht Ho. assert (Th : forall t, tri side (@throw nxt t) S (lands2 k)) by (intros; apply tri_throw; exact H).
  assert (Dn : tri side (ret (NDone XUnit)) S (lands2 k)) by (apply tri_ret; [exact H|split; exact I]).
  assert (Lp : forall n S, Inv S -> tri side (extra_loop O n) S (lands2 (Some (GExtra n)))).
  { intros n S0 H0. apply tri_lands2; [|right; eauto]. apply tri_extra_loop; [intros; apply side_local|exact H0]. }
  assert (Get : forall (k0 : sim -> M nxt) S0, tri side (k0 S0) S0 (lands2 k) -> tri side (bind get k0) S0 (lands2 k)) by (intros k0 S0 T; exact T).
  destruct c; cbn [kind_of] in Hk; subst k; try discriminate; try (elim Hne; reflexivity).
  - (* KProcPro *) destruct o as [v|t]; [|destruct t; apply Th]. cbn [go_on]. apply tri_lands2; [|auto].
    eapply tri_bind with (Q1 := fun _ _ => True); [apply tri_upd; auto; apply rely_refl|]. intros _ S1 H1 W1 _.
    eapply tri_bind with (Q1 := fun _ _ => True); [|intros _ S2 H2 W2 _; apply tri_proc_loop; exact H2].
    destruct first; [apply tri_ret; auto|].
    eapply tri_bind; [apply tri_new_event with (Q := fun ev S' => role_at ev RAct S'); auto; left; reflexivity|].
    intros ev' S2 H2 _ R. destruct (Inv_pact ev' S2 H2 R) as [H3 _]. unfold tri, upd_. split; [exact H3|]. split; [|exact I]. apply frame_same; try reflexivity. apply rely_refl.
  - (* KProcAct *) destruct o as [v|t]; [|apply Th]. apply tri_lands2; [|auto]. apply tri_zero. exact H.
  - (* KProcZero *) destruct more; [discriminate|]. destruct o as [v|t]; [|apply Th]. apply tri_lands2; [|auto]. apply tri_zero. exact H.
  - (* KExtra0 *) destruct o as [v|t]; [|apply Th]. apply Lp. exact H.
  - (* KExtraAct *) destruct o as [v|t]; [|apply Th]. cbn [go_on].
    eapply tri_bind; [apply tri_new_event with (Q := fun ev S' => role_at ev RAct S'); auto; left; reflexivity|].
    intros ev' S1 H1 _ R.
    eapply tri_bind with (Q1 := fun _ _ => True); [|intros _ S2 H2 W2 _; apply Lp; exact H2].
    destruct (Inv_acts name ev' S1 H1 R) as [H2 _]. unfold tri, upd_. split; [exact H2|]. split; [|exact I]. apply frame_same; try reflexivity. apply rely_refl.
  - (* KExtraPro *) destruct Hf as (r & Hr & Kr & _).
    destruct o as [[| |g]|t]; try (apply Lp; exact H).
    + cbn [go_on]. apply tri_lands2; [|right; eauto].
      eapply tri_bind; [apply tri_spawn_local with (Q := fun p S' => (exists r, proc_at p S' = Some r /\ pkind r = Some (GLocal false name) /\ pown r = own_event p S') /\ processed (own_event p S') S' = false); auto|].
      { split; [apply Ho; reflexivity|left; eauto]. }
      intros q S6 H6 F6 [(r' & Hr' & Hk & Hp') Hp]. unfold wait_for.
      eapply tri_bind; [apply tri_get with (Q := fun a S' => a = S' /\ S' = S6); auto|]. intros a S7 _ _ [-> ->]. apply tri_ret; [exact H6|].
      cbn. repeat split; auto; [|exists r'; auto]. eapply role_not_int; [eapply own_role; eauto|discriminate].
    + destruct t; try apply Th. cbn [go_on]. apply Get.
      eapply tri_bind with (Q1 := fun _ _ => True); [|intros _ S1 H1 _ _; apply Lp; exact H1].
      destruct (ended pro S); [apply tri_ret; auto|]. apply tri_interrupt; auto. exists r. rewrite Kr. split; [exact Hr|exact I].
  - (* KExtraCont *) destruct o as [v|t]; [apply Lp; exact H|]. destruct t; try apply Th. apply Lp. exact H.
  - (* KLocal0 *) destruct isproc; [discriminate|]. destruct o as [v|t]; [|apply Th]. apply tri_local_next; [exact Ht|exact H].
  - (* KLocal *) destruct isproc; [discriminate|]. destruct Ht as [Hq Hg]. destruct o as [v|t]; [|destruct t; first [exact (Th _)|exact Dn]]. cbn [go_on].
    eapply tri_bind with (Q1 := fun _ _ => True); [apply tri_note; [exact H| |exact Hq]; apply (Hd v); reflexivity|]. intros _ S1 H1 _ _.
    eapply tri_bind with (Q1 := fun _ _ => True); [apply tri_activate; auto|]. intros _ S2 H2 _ _.
    eapply tri_bind with (Q1 := fun _ _ => True); [apply tri_interact; auto|]. intros _ S3 H3 _ _. apply tri_local_next; [exact Hg|exact H3].
  - (* KEnv0 *) destruct o as [v|t]; [|apply Th]. cbn [go_on]. apply tri_env_next; [exact Ht|exact H|]. intros r S1 H1 W1 Hr.
    destruct r as [[e g']|]; [|apply tri_throw; exact H1]. destruct (Hr e g' eq_refl) as [Hq Hg].
    apply tri_env_loop2; auto. rewrite (f_hasenv _ _ _ W1). apply He. exact I.
  - (* KEnvWait *) destruct Hf as (r & Hr & Kr). destruct o as [v|t]; [|apply Th]. cbn [go_on]. apply Get.
    eapply tri_bind with (Q1 := fun _ _ => True).
    { destruct (trig S (eact S)); [|apply tri_ret; auto].
      eapply tri_bind; [apply tri_new_event with (Q := fun ev S' => role_at ev RAct S'); auto; left; reflexivity|]. intros ev' S1 H1 W1 R.
      eapply tri_bind with (Q1 := fun _ S' => Inv S' /\ proc_at pro S' = Some r).
      { unfold tri, upd_. destruct (Inv_eact ev' S1 H1 R) as [H2 _]. split; [exact H2|]. split; [apply frame_same; try reflexivity; apply rely_refl|]. split; [exact H2|]. exact (frame_proc _ _ _ _ _ W1 Hr). }
      intros _ S2 H2 W2 [_ Hr2]. apply tri_interrupt; auto. exists r. rewrite Kr. split; [exact Hr2|exact I]. }
    intros _ S1 H1 W1 _. apply tri_env_next; [exact Ht|exact H1|]. intros r' S2 H2 W2 Hr'.
    destruct r' as [[e g']|]; [|apply tri_ret; [exact H2|split; exact I]]. destruct (Hr' e g' eq_refl) as [Hq Hg]. apply Get.
    eapply tri_bind with (Q1 := fun _ _ => True); [apply tri_auto_all; auto|]. intros _ S3 H3 W3 _.
    apply tri_env_loop2; auto. rewrite (f_hasenv _ _ _ W3), (f_hasenv _ _ _ W2), (f_hasenv _ _ _ W1). apply He. exact I.
  - (* KEnvP0 *) destruct o as [v|t]; [|apply Th]. cbn [go_on]. apply Get. destruct (Z.ltb _ _).
    + eapply tri_bind with (Q1 := fun _ _ => True); [apply tri_activate; auto|]. intros _ S1 H1 _ _. apply tri_throw. exact H1.
    + eapply tri_bind; [apply tri_timeout with (Q := fun ev S' => role_at ev (RTime (etime e)) S' /\ processed ev S' = false); auto|].
      * intros ev' S1 R P. split; [|exact P]. replace (etime e) with (now S + (etime e - now S))%Z by lia. exact R.
      * intros ev' S1 H1 F1 [R P]. apply tri_ret; [exact H1|]. split; [|exact Ht]. cbn. repeat split; auto. eapply role_not_int; [exact R|discriminate].
  - (* KEnvP *) destruct o as [v|t]; cbn [go_on].
    + eapply tri_bind with (Q1 := fun _ _ => True); [apply tri_note; [exact H| |exact Ht]; apply (Hd v); reflexivity|]. intros _ S1 H1 _ _.
      eapply tri_bind with (Q1 := fun _ _ => True); [apply tri_activate; auto|]. intros _ S2 H2 _ _. apply tri_ret; [exact H2|split; exact I].
    + destruct t; (eapply tri_bind with (Q1 := fun _ _ => True); [apply tri_activate; auto|]; intros _ S2 H2 _ _);
        (apply tri_ret; [exact H2|split; exact I]) || (apply tri_throw; exact H2).
Qed.
