(** Rules with fixed commands never leave a module busy. *)
From Coq Require Import Permutation.
From Verif Require Import Base BaseFacts Chunks DecMem Buffers Productions ProdSpec ProdFacts ActFacts HarvestFacts CycleFacts LearnFacts LiftFacts Sim SimSpec Compile CompileFacts FrameFacts SafeSpec RequestFacts FreeSpec.
Local Open Scope string_scope.
Local Open Scope list_scope.

(** ** A fixed command is not idle *)
Lemma fixed_resolved b v w : fixed_command v -> check_bound_vars b v true = Ok w -> exists x, vvals w = VStr x /\ (x = "move_attention" \/ x = "clear" \/ x = "press_key").
Proof.
  intros (x & E1 & E2 & Hx) H. exists x. split; [|exact Hx]. unfold check_bound_vars in H. rewrite E1, E2 in H.
  assert (T : truthy (VStr x) = true) by (destruct Hx as [->|[->| ->]]; reflexivity). assert (R : is_relational (VStr x) = false) by (destruct Hx as [->|[->| ->]]; reflexivity).
  assert (V : val_eqb (VStr x) (VStr x) = true) by (cbn; apply String.eqb_refl).
  assert (C0 : cbv_combine (Some (VStr x)) VNone = Ok (VStr x)) by (unfold cbv_combine; rewrite ?R; reflexivity).
  assert (C1 : cbv_combine (Some (VStr x)) (VStr x) = Ok (VStr x)) by (unfold cbv_combine; rewrite T, R, V; reflexivity).
  rewrite T in H. cbv zeta in H. rewrite C0 in H. cbn [rbind var_truthy] in H. rewrite C1 in H. cbn [rbind] in H.
  destruct (vnegvals (splitting v)); [|discriminate]. cbn [rbind] in H. rewrite C1 in H. cbn [rbind] in H. destruct (vnegvars (splitting v)); [|discriminate]. cbn [rbind] in H. rewrite C1 in H. cbn [rbind] in H. rewrite T in H.
  injection H as <-. reflexivity.
Qed.
Lemma resolve_in b l : forall args n r, resolve_slots b true l = Ok args -> dget args n = Some r -> exists v w, In (n, v) l /\ r = RVV w /\ check_bound_vars b v true = Ok w.
Proof.
  induction l as [|[k v] l IH]; cbn [resolve_slots]; intros args n r H E; [injection H as <-; discriminate|].
  destruct (check_bound_vars b v true) as [w|] eqn:C; [|discriminate]. cbn [rbind] in H. destruct (resolve_slots b true l) as [rest|] eqn:Er; [|discriminate]. cbn [rbind] in H. injection H as <-.
  cbn [dget] in E. destruct (String.eqb k n) eqn:Q.
  - apply String.eqb_eq in Q. subst k. injection E as <-. exists v, w. split; [left; reflexivity|auto].
  - destruct (IH rest n r eq_refl E) as (v' & w' & I' & X). exists v', w'. split; [right; exact I'|exact X].
Qed.
Lemma commands_not_idle m c bs : commands c -> ~ idle_command m c bs.
Proof.
  intros H (_ & o & args & w & -> & Hr & Hd & Hw). destruct (resolve_in _ _ _ _ _ Hr Hd) as (v & w' & Hin & [= <-] & C).
  unfold removeunused in Hin. apply filter_In in Hin. destruct Hin as [Hin _]. destruct (fixed_resolved _ _ _ (H o v eq_refl Hin) C) as (x & Ex & Hx). rewrite Ex in Hw.
  destruct Hw as [Hw|Hw]; [discriminate|]. injection Hw as ->. destruct Hx as [Hx|[Hx|Hx]]; discriminate.
Qed.

(** ** Compiling keeps fixed commands *)
Lemma rename_fixed rule vs v w : fixed_command v -> rename_part rule vs v = Ok w -> fixed_command (Some w).
Proof.
  intros (x & E1 & E2 & Hx) H. unfold rename_part in H. rewrite E2 in H. cbn [var_truthy rbind] in H. apply rbind_Ok in H. destruct H as (nv & _ & [= <-]). exists x. cbn [splitting vvals vvar]. auto.
Qed.
Lemma subst_fixed m d v w : fixed_command v -> subst_part m d v = Ok w -> fixed_command (Some w).
Proof.
  intros (x & E1 & E2 & Hx) H. unfold subst_part in H. rewrite E2 in H. cbn [var_truthy rbind] in H. injection H as <-. exists x. cbn [splitting vvals vvar fst snd]. auto.
Qed.
Lemma merge_fixed a b : fixed_command a -> fixed_command (Some (merge_part a b)).
Proof.
  intros (x & E1 & E2 & Hx). unfold merge_part, part_truthy. rewrite E1. assert (T : truthy (VStr x) = true) by (destruct Hx as [->|[->| ->]]; reflexivity). rewrite T. cbn [orb]. exists x. auto.
Qed.
Definition obeys (N : string -> Prop) (rhs : dict content) : Prop := forall n c, N n -> In (String "+" n, c) rhs -> commands c.
Lemma with_parts_obeys N f l l' : (forall v w, fixed_command v -> f v = Ok w -> fixed_command (Some w)) -> with_parts f l = Ok l' -> obeys N l -> obeys N l'.
Proof.
  intros Hf H Ho n c Hn Hin. apply rmap_Forall2 in H. apply In_nth_error in Hin. destruct Hin as (k & Hk).
  assert (X : exists p, In p l /\ (match fst p with "" => Err EIndex | String code _ => if carries code then ch <- chunk_in (snd p) ;; ch' <- with_slots f ch ;; Ok (fst p, CChunk ch') else Ok p end) = Ok (String "+" n, c)).
  { clear -H Hk. revert k Hk. induction H as [|p q l l' E F IH]; intros [|k] Hk; try discriminate; cbn in Hk; [injection Hk as ->; exists p; split; [left; reflexivity|exact E]|].
    destruct (IH k Hk) as (p' & A & B). exists p'. split; [right; exact A|exact B]. }
  destruct X as ([[|code b] c0] & Hp & E); cbn [fst snd] in E; [discriminate|]. destruct (carries code) eqn:Ec.
  - apply rbind_Ok in E. destruct E as (ch & E0 & E). apply rbind_Ok in E. destruct E as (ch' & E1 & [= -> -> <-]). destruct c0 as [ch0| | |]; try discriminate. injection E0 as ->.
    intros o v [= <-] Hv. unfold with_slots in E1. apply rbind_Ok in E1. destruct E1 as (sl & E1 & [= <-]). cbn [cslots] in Hv. apply rmap_Forall2 in E1.
    assert (Y : exists v0 w, In ("cmd", v0) (cslots ch) /\ f v0 = Ok w /\ v = Some w).
    { clear -E1 Hv. induction E1 as [|p q l l' E F IH]; [destruct Hv|]. apply rbind_Ok in E. destruct E as (w & Ew & [= <-]). destruct Hv as [Hv|Hv].
      - injection Hv as Ek <-. exists (snd p), w. split; [left; rewrite <- Ek; destruct p; reflexivity|auto].
      - destruct (IH Hv) as (v0 & w0 & A & B). exists v0, w0. split; [right; exact A|exact B]. }
    destruct Y as (v0 & w & Hv0 & Ew & ->). apply (Hf v0 w); [|exact Ew]. exact (Ho n (CChunk ch) Hn Hp ch v0 eq_refl Hv0).
  - injection E as -> -> ->. exact (Ho n c Hn Hp).
Qed.
Lemma merge_obeys N vals l l' : rmap (merge_action vals) l = Ok l' -> obeys N l -> obeys N l'.
Proof.
  intros H Ho n c Hn Hin. apply rmap_Forall2 in H.
  assert (X : exists p, In p l /\ merge_action vals p = Ok (String "+" n, c)).
  { clear -H Hin. induction H as [|p q l l' E F IH]; [destruct Hin|]. destruct Hin as [->|Hin]; [exists p; split; [left; reflexivity|exact E]|]. destruct (IH Hin) as (p' & A & B). exists p'. split; [right; exact A|exact B]. }
  destruct X as (p & Hp & E). pose proof (merge_action_key _ _ _ E) as K. destruct p as [k0 c0]. cbn [fst] in K. subst k0. unfold merge_action in E. cbn [fst snd rhs_meth Ascii.eqb Bool.eqb] in E.
  destruct (dget vals n) as [info|]; [|injection E as <-; exact (Ho n c0 Hn Hp)]. apply rbind_Ok in E. destruct E as (ch & E0 & [= <-]). destruct c0 as [ch0| | |]; try discriminate. injection E0 as ->.
  intros o v [= <-] Hv. cbn [cslots] in Hv. apply in_map_iff in Hv. destruct Hv as ([k u] & Q & Hu). cbn [fst snd] in Q. injection Q as -> <-.
  pose proof (Ho n (CChunk ch) Hn Hp ch u eq_refl Hu) as F. destruct (dget _ "cmd"); [apply merge_fixed; exact F|exact F].
Qed.
Lemma dset_in {A} (d : dict A) k v k' v' : In (k', v') (dset d k v) -> In (k', v') d \/ (k' = k /\ v' = v).
Proof.
  induction d as [|[k0 v0] d IH]; cbn [dset]; [intros [[= <- <-]|[]]; auto|]. destruct (String.eqb k0 k) eqn:E.
  - intros [[= <- <-]|H]; [right; apply String.eqb_eq in E; auto|left; right; exact H].
  - intros [H|H]; [left; left; exact H|]. destruct (IH H) as [X|X]; [left; right; exact X|right; exact X].
Qed.
Lemma keep_obeys N ret r1 : forall acc rhs, keep_actions ret r1 acc = Ok rhs -> obeys N r1 -> obeys N acc -> obeys N rhs.
Proof.
  induction r1 as [|[key c1] r1 IH]; intros acc rhs H H1 Ha; cbn [keep_actions] in H; [injection H as <-; exact Ha|].
  assert (H1' : obeys N r1) by (intros n c Hn Hin; apply (H1 n c Hn); right; exact Hin).
  destruct key as [|code buff]; [discriminate|]. destruct (existsb (same_buffer buff) (dkeys acc)); [exact (IH _ _ H H1' Ha)|]. destruct (is_buffer ret buff); [exact (IH _ _ H H1' Ha)|].
  assert (G : obeys N (dset acc (String code buff) c1)).
  { intros n c Hn Hin. apply dset_in in Hin. destruct Hin as [Hin|([= <- <-] & ->)]; [exact (Ha n c Hn Hin)|]. apply (H1 n c1 Hn). left. reflexivity. }
  destruct (rhs_meth code) as [[]|]; try discriminate H; try exact (IH _ _ H H1' G); (apply rbind_Ok in H; destruct H as (ch & E & H); destruct c1 as [ch1| | |]; try discriminate E; injection E as ->; exact (IH _ _ H H1' G)).
Qed.
Lemma combine_obeys N tie s n2 ru1 ru2 vals l r : combine tie s n2 ru1 ru2 vals = Ok (Some (Ok l, Ok r)) -> obeys N (rrhs ru1) -> obeys N (rrhs ru2) -> obeys N r.
Proof.
  intros H A1 A2. apply combine_inv in H. destruct H as (_ & retr & vs & lhs2 & vals1 & mv & vals2 & l1 & r1 & l2 & r2 & r2' & Hs & H2 & H3 & _ & _ & _ & H4 & _ & H5 & _ & HR).
  unfold collapse_rhs in HR. cbn [rbind] in HR. apply rbind_Ok in HR. destruct HR as (acc & Ha & HR). apply (keep_obeys _ _ _ _ _ HR).
  - apply (with_parts_obeys _ _ _ _ (subst_fixed _ _) H4 A1).
  - apply (merge_obeys _ _ _ _ Ha). apply (with_parts_obeys _ _ _ _ (subst_fixed _ _) H5). apply (with_parts_obeys _ _ _ _ (rename_fixed _ _) H3 A2).
Qed.

(** ** Simulations *)
Section Commanded.
Variable i : nat.
Variable nm : dict nat.
Local Notation mine := (fun n => dget nm n = Some i).
Definition asks (p : proc) : Prop := match p with PReq _ _ MRetrieve j c _ _ => j = i -> commands c | _ => True end.
Record led (s : st) : Prop := MkLed {
  l_names : snames s = nm;
  l_rules : forall r ru, dget (srules s) r = Some ru -> obeys mine (rrhs ru);
  l_procs : Forall asks (sprocs s) }.
Lemma led_same s s' : snames s' = snames s -> srules s' = srules s -> sprocs s' = sprocs s -> led s -> led s'.
Proof. intros A B C [H1 H2 H3]. split; [rewrite A; exact H1|rewrite B; exact H2|rewrite C; exact H3]. Qed.
Lemma led_rules s s' : snames s' = snames s -> no_new (srules s) (srules s') -> sprocs s' = sprocs s -> led s -> led s'.
Proof. intros A B C [H1 H2 H3]. split; [rewrite A; exact H1| |rewrite C; exact H3]. intros r ru E. destruct (B r ru E) as (ru' & E' & _ & ->). exact (H2 r ru' E'). Qed.
Lemma tame_led g : free RequestFacts.tame g -> fine led g.
Proof. apply free_fine. intros s s' [(_ & B & _ & D & _) [C _]]. apply led_same; assumption. Qed.
Lemma led_harvest ns t : forall s, led s -> led (harvest ns t s).
Proof.
  induction ns as [|n ns IH]; intros s H; cbn [harvest]; [exact H|]. apply IH. destruct (dget (snames s) n); [|exact H]. destruct H as [H1 H2 H3]. split; [exact H1|exact H2|].
  cbn [sprocs add_proc set_procs]. apply Forall_app. split; [exact H3|]. constructor; [exact I|constructor].
Qed.
Lemma led_actions O t l : forall temp, obeys mine l -> fine led (actions O t temp l).
Proof.
  induction l as [|[key c] l IH]; intros temp Ho; cbn [actions].
  - apply fine_read. intros s Hs. destruct (qstrict (sp s)); [|exact I]. split; [|exact I]. apply led_harvest. exact Hs.
  - assert (Ho' : obeys mine l) by (intros n c' Hn Hin; apply (Ho n c' Hn); right; exact Hin).
    destruct key as [|code name]; [apply fine_raise|]. destruct (rhs_meth code) as [m|] eqn:Em; [|apply fine_raise]. cbv zeta. apply fine_read. intros s Hs.
    destruct (dget (snames s) name) as [j|] eqn:Ej; [|exact I]. cbn [stays].
    assert (Hb : led (set_state j "busy" s)) by (revert Hs; apply led_same; unfold set_state, set_attrs; destruct (nth_error (smods s) j); reflexivity). split; [exact Hb|].
    destruct (interruptible m); [|apply stays_gseq; [apply IH; exact Ho'|apply tame_led; [apply tame_start|exact Hb]|exact Hb]].
    assert (Hp : led (add_proc name m j c (svars s) t (set_state j "busy" s))).
    { destruct Hb as [H1 H2 H3]. split; [exact H1|exact H2|]. cbn [sprocs add_proc set_procs]. apply Forall_app. split; [exact H3|]. constructor; [|constructor].
      destruct m; try exact I. intros ->. apply (Ho name c); [rewrite <- (l_names _ Hs); exact Ej|]. left. f_equal. f_equal. revert Em. unfold rhs_meth.
      repeat match goal with |- context [Ascii.eqb ?x ?y] => destruct (Ascii.eqb_spec x y); [subst|]; try discriminate end; auto. }
    split; [exact Hp|]. apply IH; assumption.
Qed.
Lemma obeys_ordered rhs l : ordered_rhs rhs = Ok l -> obeys mine rhs -> obeys mine l.
Proof. intros E H n c Hn Hin. apply (H n c Hn). exact (Permutation_in _ (proj2 (ordered_rhs_staged _ _ E)) Hin). Qed.
Lemma led_fire O r ru t : obeys mine (rrhs ru) -> fine led (g_fire O r ru t).
Proof.
  intros Ho. unfold g_fire, g_update. apply fine_act; [intros s; apply led_same; reflexivity|]. apply fine_yield. apply fine_gseq.
  - apply fine_get. intros s. destruct (ordered_rhs (rrhs ru)) as [l|] eqn:El; [|apply fine_raise]. apply led_actions. exact (obeys_ordered _ _ El Ho).
  - apply fine_act; [|apply fine_ret]. intros s. apply led_same; destruct (slast s) as [l|]; try (destruct (_ && _)%bool); reflexivity.
Qed.
Variables (O : oracle) (tie : string -> string -> bool).
Hypothesis CO : compiles_with O tie.
Lemma led_try r t : fine led (g_try O r t).
Proof.
  unfold g_try. apply fine_read. intros s Hs. destruct (dget (srules s) r) as [ru|] eqn:Er; [|exact I].
  destruct (lhs_test s (rlhs ru) (svars s)) as [[b|]|] eqn:T; [|intros s' Hs'; exact I|exact I]. cbv zeta.
  assert (Hru : obeys mine (rrhs ru)) by exact (l_rules _ Hs r ru Er).
  assert (H1 : led (set_vars b s)) by (revert Hs; apply led_same; reflexivity).
  destruct (learned (set_vars b s) ru t) as [s2|] eqn:L; [|exact I].
  assert (H2 : led s2).
  { destruct (learned_keep _ _ _ _ L) as (L1 & L2 & L3 & _). destruct (learned_no_new _ _ _ _ L) as (M1 & M2 & M3 & M4). revert H1. apply led_rules; assumption. }
  destruct (compile_now O s2) as [[[[n again] rs]|]|e] eqn:C; cbn [stays].
  - assert (H3 : led (set_last (slast s2) None (set_order (sorder s2 ++ [n])%list (set_rules rs s2)))).
    { destruct (compile_now_inv _ _ _ _ CO C) as (r1 & r2 & vals & _ & K). destruct H2 as [I1 I2 I3]. split; try assumption.
      intros m rm E. cbn [srules set_last set_order set_rules] in E. pose proof (compile_exact _ _ _ _ _ _ _ _ K) as (_ & ru1 & ru2 & l & rr & G1 & G2 & Cm & D).
      destruct D as [(-> & D1 & ->)|(-> & old & G & _ & _ & ->)].
      - destruct (string_dec m n) as [->|Nm].
        + rewrite dget_dset_eq in E. injection E as <-. cbn [rrhs]. exact (combine_obeys _ _ _ _ _ _ _ _ _ Cm (I2 r1 ru1 G1) (I2 r2 ru2 G2)).
        + rewrite dget_dset_neq in E by congruence. exact (I2 m rm E).
      - destruct (qlearn (sp s2)); [|exact (I2 m rm E)]. destruct (no_new_util _ _ _ _ G m rm E) as (o' & E' & _ & ->). exact (I2 m o' E'). }
    split; [exact H3|]. intros s' Hs'. apply led_fire; assumption.
  - assert (H3 : led (set_last (slast s2) None s2)) by (revert H2; apply led_same; reflexivity). split; [exact H3|apply led_fire; assumption].
  - split; [exact H2|exact I].
Qed.
Lemma remove_asks l : forall l', remove_procedural l = Some l' -> Forall asks l -> Forall asks l'.
Proof.
  induction l as [|p l IH]; intros l' E H; [discriminate|]. inversion H as [|x y Hp Hl]; subst. cbn [remove_procedural] in E.
  destruct p; try (injection E as <-; exact Hl); (destruct (remove_procedural l) as [l2|]; [|discriminate]; injection E as <-; constructor; [exact Hp|apply IH; auto]).
Qed.
Lemma led_procedural t : fine led (procedural O t).
Proof.
  unfold procedural. apply fine_act.
  { intros s [H1 H2 H3]. split; [exact H1|exact H2|]. cbn [sprocs set_vars set_procs]. apply Forall_app. split; [exact H3|]. constructor; [exact I|constructor]. }
  apply fine_yield. apply fine_act; [intros s; apply led_same; reflexivity|]. apply fine_read. intros s0 H0. destruct (select O s0) as [[r|]|]; [| |exact I].
  - revert s0 H0. enough (K : forall q, fine led (GAct (fun s => use_rule r t (set_rule (Some r) s)) (GYield (ev t PROCEDURAL (WSelected r)) (let t' := (t + q)%Q in GYield (ev t' PROCEDURAL WUnknown) (g_try O r t'))))) by (intros s0 H0; apply K; exact H0).
    intros q. apply fine_act; [|apply fine_yield; cbv zeta; apply fine_yield, led_try].
    intros s. apply led_same; unfold use_rule; repeat match goal with |- context[match ?z with _ => _ end] => destruct z end; reflexivity.
  - cbn [stays]. split; [revert H0; apply led_same; reflexivity|]. destruct (remove_procedural (sprocs s0)) as [l|] eqn:E; [|exact I]. cbn [stays]. destruct H0 as [H1 H2 H3]. split; [|exact (fun s' _ => I)].
    split; [exact H1|exact H2|]. exact (remove_asks _ _ E H3).
Qed.
Lemma led_governed : governed led asks (fine led) O (fun _ => False).
Proof.
  split.
  - intros s l n [H1 H2 H3] Hl. split; assumption.
  - intros s. apply led_same; reflexivity.
  - intros s. exact (l_procs s).
  - intros s j b _ _ _ id name en stims t. exact I.
  - intros g s s' ns o F Hs. apply resume_fine; [exact Hs|apply F; exact Hs].
  - intros p _. apply tame_led, tame_proc.
  - exact led_procedural.
  - intros g [].
Qed.
End Commanded.

Theorem never_idle O tie t s i S : compiles_with O tie -> sprocs s = [] -> commanded i s -> sim_runs O (sim_init t s None) S -> ~ idly_asked i (ss S).
Proof.
  intros CO Ep Hc R (id & n & m & c & bs & t' & Hin & Hi). assert (L : led i (snames s) (ss S)).
  { refine (sim_governed _ _ _ _ _ (led_governed i (snames s) O tie CO) t s None S _ _ R); [|discriminate]. split; [reflexivity| |rewrite Ep; constructor].
    intros r ru E n' c' Hn Hr. exact (Hc r ru n' c' E Hn Hr). }
  pose proof (proj1 (Forall_forall _ _) (l_procs _ _ _ L) _ Hin) as A. assert (m = MRetrieve) by exact (proj1 Hi). subst m. exact (commands_not_idle _ _ _ (A eq_refl) Hi).
Qed.
