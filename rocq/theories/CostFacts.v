(** Bounds on how many events generators report and how many processes they put on the list. *)
From Coq Require Import Lia.
From Verif Require Import Base BaseFacts Chunks DecMem Buffers Productions ProdSpec CycleFacts LearnFacts StoryFacts Environment Sim.
Local Open Scope string_scope.
Local Open Scope list_scope.
Local Open Scope nat_scope.

(** Elements of procs: the string PROCEDURAL, and the others. *)
Definition is_pproc (p : proc) : bool := match p with PProc => true | _ => false end.
Definition pcount (l : list proc) : nat := List.length (filter is_pproc l).
Definition ocount (l : list proc) : nat := List.length (filter (fun p => negb (is_pproc p)) l).
Lemma pcount_app l l' : pcount (l ++ l') = pcount l + pcount l'.
Proof. unfold pcount. rewrite filter_app, app_length. reflexivity. Qed.
Lemma ocount_app l l' : ocount (l ++ l') = ocount l + ocount l'.
Proof. unfold ocount. rewrite filter_app, app_length. reflexivity. Qed.

(** At most [d] more requests, no more marks of procedural processes, and the same settings. *)
Definition tight (d : nat) (s s' : st) : Prop :=
  ocount (sprocs s') <= ocount (sprocs s) + d /\ pcount (sprocs s') <= pcount (sprocs s) /\ settings s' = settings s.
Lemma tight_same s s' : sprocs s' = sprocs s -> settings s' = settings s -> tight 0 s s'.
Proof. intros A B. unfold tight. rewrite A, B. repeat split; lia. Qed.
Lemma tight_trans d e s s1 s2 : tight d s s1 -> tight e s1 s2 -> tight (d + e) s s2.
Proof. intros (A & B & C) (A' & B' & C'). repeat split; try lia. congruence. Qed.
Lemma tight_more d e s s' : tight d s s' -> d <= e -> tight e s s'.
Proof. intros (A & B & C) L. repeat split; try lia. exact C. Qed.

(** The number of events of request generators, with what they hand over to. *)
Definition CC : nat := 20.
(** At most [k] events, and at most [d] requests. *)
Fixpoint costs (k d : nat) (g : gen) : Prop :=
  match g with
  | GRet | GRaise _ => True
  | GYield _ g' => match k with O => False | S k' => costs k' d g' end
  | GCont g' => costs CC 0 g'
  | GNote _ g' => costs k d g'
  | GAct f g' => exists d0 d1, d = d0 + d1 /\ (forall s, tight d0 s (f s)) /\ costs k d1 g'
  | GGet h => forall s, costs k d (h s)
  end.

Lemma costs_mono g : forall k d k' d', costs k d g -> k <= k' -> d <= d' -> costs k' d' g.
Proof.
  induction g as [|e|e g IH|g IH|n g IH|f g IH|h IH]; cbn [costs]; intros k d k' d' H Lk Ld; auto.
  - destruct k as [|k]; [contradiction|]. destruct k' as [|k']; [lia|]. apply (IH k d); auto; lia.
  - apply (IH k d); auto.
  - destruct H as (d0 & d1 & -> & A & B). exists d0, (d' - d0). split; [lia|]. split; [exact A|]. apply (IH k d1); auto; lia.
  - intros s. apply (IH s k d); auto.
Qed.
Lemma costs_act f g k d : (forall s, sprocs (f s) = sprocs s) -> (forall s, settings (f s) = settings s) -> costs k d g -> costs k d (GAct f g).
Proof. intros A B H. exists 0, d. split; [reflexivity|]. split; [|exact H]. intros s. apply tight_same; auto. Qed.
Lemma costs_call {A} (f : st -> world * res A) h k d : (forall a, costs k d (h a)) -> costs k d (gcall f h).
Proof. intros H s. destruct (f s) as [w [a|e]]; [apply costs_act; [reflexivity|reflexivity|apply H]|apply costs_act; [reflexivity|reflexivity|exact I]]. Qed.
Lemma costs_record f g k d : costs k d g -> costs k d (g_record f g).
Proof. intros H s. destruct (f s); [|exact I]. apply costs_act; [reflexivity|reflexivity|exact H]. Qed.
Lemma costs_seq_call {A} (f : st -> world * res A) h g' k d : (forall a, costs k d (gseq (h a) g')) -> costs k d (gseq (gcall f h) g').
Proof. intros H s. cbv beta. destruct (f s) as [w [a|e]]; cbn [gseq]; [apply costs_act; [reflexivity|reflexivity|apply H]|apply costs_act; [reflexivity|reflexivity|exact I]]. Qed.
Lemma costs_seq_record f g g' k d : costs k d (gseq g g') -> costs k d (gseq (g_record f g) g').
Proof. intros H s. cbv beta. destruct (f s); cbn [gseq]; [|exact I]. apply costs_act; [reflexivity|reflexivity|exact H]. Qed.
Lemma costs_seq_assoc a b c : forall k d, costs k d (gseq a (gseq b c)) -> costs k d (gseq (gseq a b) c).
Proof.
  induction a as [|e|e g IH|g IH|n g IH|f g IH|h IH]; cbn [gseq costs]; intros k d H; auto.
  - destruct k; [exact H|]. apply IH. exact H.
  - destruct H as (d0 & d1 & E & A & B). exists d0, d1. auto.
Qed.
Lemma costs_seq g : forall g' k d k' d', costs k d g -> costs k' d' g' -> costs (k + k') (d + d') (gseq g g').
Proof.
  induction g as [|e|e g IH|g IH|n g IH|f g IH|h IH]; cbn [gseq costs]; intros g' k d k' d' H H'; auto.
  - apply (costs_mono _ k' d'); auto; lia.
  - destruct k as [|k]; [contradiction|]. apply IH; assumption.
  - destruct H as (d0 & d1 & -> & A & B). exists d0, (d1 + d'). split; [lia|]. split; [exact A|]. apply IH; assumption.
Qed.
Lemma attrs_procs i l s : sprocs (set_attrs i l s) = sprocs s /\ settings (set_attrs i l s) = settings s.
Proof. unfold set_attrs. destruct (nth_error (smods s) i); split; reflexivity. Qed.

Lemma costs_yield e g k d : costs k d g -> costs (S k) d (GYield e g). Proof. exact (fun H => H). Qed.
Lemma costs_cont g k d : costs 20 0 g -> costs k d (GCont g). Proof. exact (fun H => H). Qed.
Lemma costs_get h k d : (forall s, costs k d (h s)) -> costs k d (GGet h). Proof. exact (fun H => H). Qed.
Ltac same_field := intros ?; first [reflexivity|apply attrs_procs
  |unfold set_focus; destruct (nth_error _ _); reflexivity|unfold set_attend; destruct (nth_error _ _); reflexivity
  |unfold set_mvt; destruct (nth_error _ _); reflexivity|unfold set_mlast; destruct (nth_error _ _); reflexivity
  |match goal with |- context[(if ?x then _ else _) _] => destruct x; reflexivity end].
Ltac costs_tac :=
  repeat (cbv beta zeta; cbn [gseq];
    match goal with
    | |- True => exact I
    | |- costs _ _ GRet => exact I
    | |- costs _ _ (GRaise _) => exact I
    | |- costs _ _ (gcall _ _) => apply costs_call; intro
    | |- costs _ _ (gseq (gcall _ _) _) => apply costs_seq_call; intro
    | |- costs _ _ (g_record _ _) => apply costs_record
    | |- costs _ _ (gseq (g_record _ _) _) => apply costs_seq_record
    | |- costs _ _ (gseq (gseq _ _) _) => apply costs_seq_assoc
    | |- costs _ _ (GAct _ _) => apply costs_act; [same_field|same_field|]
    | |- costs _ _ (GYield _ _) => apply costs_yield
    | |- costs _ _ (GCont _) => apply costs_cont
    | |- costs _ _ (GGet _) => apply costs_get; intro
    | |- costs _ _ (match ?x with _ => _ end) => destruct x
    | |- costs _ _ (match ?x with _ => _ end _) => destruct x
    | |- costs _ _ (gseq (match ?x with _ => _ end) _) => destruct x
    end).

Theorem costs_start O m name i c bs t : costs CC 0 (start O m name i c bs t).
Proof.
  unfold CC. destruct m; unfold start, g_extra, g_modify, g_execute, g_clear, g_overwrite, g_modreq, g_request, g_setgoal,
    g_find, g_visual, g_shift, g_viscont, g_encode, g_motor, g_motorcont, g_retrieve, g_clear; costs_tac.
Qed.
Theorem costs_proc O p : costs CC 0 (proc_gen O p).
Proof.
  destruct p as [|id name m i c bs t|id name encode i stims t]; cbn [proc_gen]; [exact I|apply costs_start|].
  unfold CC. destruct encode; [unfold g_autobuffer|unfold g_autosearch]; costs_tac.
Qed.

(** ** Actions of a rule *)

Lemma tight_harvest names t : forall s, tight (List.length names) s (harvest names t s).
Proof.
  induction names as [|n names IH]; intros s; cbn [harvest List.length]; [apply tight_same; reflexivity|].
  apply (tight_trans 1 (List.length names) _ (match dget (snames s) n with Some i => add_proc n MClear i CNone (svars s) t s | None => s end)); [|apply IH].
  destruct (dget (snames s) n); [|apply (tight_more 0); [apply tight_same; reflexivity|lia]].
  unfold tight, add_proc. cbn [sprocs set_procs]. rewrite ocount_app, pcount_app. cbn. repeat split; lia.
Qed.
Lemma costs_actions O t : forall l temp, exists k d, costs k d (actions O t temp l).
Proof.
  induction l as [|[key c] l IH]; intros temp; cbn [actions].
  - exists 0, (List.length (var_keys temp)). intros s. destruct (qstrict (sp s)); [|exact I]. exists (List.length (var_keys temp)), 0.
    split; [lia|]. split; [apply tight_harvest|exact I].
  - destruct key as [|code name]; [exists 0, 0; exact I|]. destruct (rhs_meth code) as [m|]; [|exists 0, 0; exact I].
    destruct (IH (MkB (ddel (bpos temp) name) (bneg temp))) as (k & d & H). exists (CC + k), (1 + d). cbn [costs]. intros s.
    destruct (dget (snames s) name) as [i|]; [|exact I]. cbn [costs]. exists 0, (1 + d). split; [reflexivity|]. split; [intros x; apply tight_same; apply attrs_procs|].
    destruct (interruptible m).
    + exists 1, d. split; [reflexivity|]. split; [|apply (costs_mono _ k d); [exact H|lia|lia]].
      intros x. unfold tight, add_proc. cbn [sprocs set_procs]. rewrite ocount_app, pcount_app. cbn. repeat split; lia.
    + apply (costs_mono _ (CC + k) (0 + d)); [|lia|lia]. apply costs_seq; [apply costs_start|exact H].
Qed.
Lemma costs_act_rest O r ru t s : exists k d g, costs k d g /\ resume (g_act O r ru t) s = resume g s.
Proof.
  unfold g_act. destruct (ordered_rhs (rrhs ru)) as [l|e] eqn:E.
  - destruct (costs_actions O t l (svars s)) as (k & d & H).
    exists (k + 0), (d + 0). eexists. split; [apply costs_seq; [exact H|]|].
    2:{ cbn [g_update gseq resume]. rewrite E. reflexivity. }
    apply costs_act; [| |exact I]; intros x; destruct (slast x) as [z|]; try reflexivity; destruct (negb (String.eqb z "") && negb (String.eqb z r))%bool; reflexivity.
  - exists 0, 0, (GRaise e). split; [exact I|]. cbn [g_update gseq resume]. rewrite E. reflexivity.
Qed.

(** ** The environment *)

Lemma costs_screens : forall objs ks ts t, costs (List.length objs) 0 (screens t objs ks ts).
Proof.
  induction objs as [|o objs IH]; intros ks ts t; cbn [screens]; [exact I|].
  destruct ts as [|q ts]; [exact I|]. destruct ks as [|k ks]; [exact I|]. apply costs_act; [reflexivity|reflexivity|]. apply IH.
Qed.
Theorem costs_env initial stims trigs times start : exists k, costs k 0 (env_process initial stims trigs times start).
Proof.
  unfold env_process. destruct (prepare _ _ _) as [((objs & ks) & ts)|e]; [|exists 0; exact I].
  exists (S (List.length objs)). cbn [costs]. apply costs_screens.
Qed.

(** ** One step *)

Lemma costs_resume g : forall k d s s' ns o, costs k d g -> resume g s = (s', ns, o) ->
  exists d0 d1, d = d0 + d1 /\ tight d0 s s' /\
    match o with
    | OYield _ g' => exists k', k = S k' /\ costs k' d1 g'
    | OCont g' => costs CC 0 g'
    | _ => True
    end.
Proof.
  induction g as [|e|e g IH|g IH|n g IH|f g IH|h IH]; cbn [resume costs]; intros k d s s' ns o Hg H.
  1-4: injection H as <- <- <-; exists 0, d; split; [reflexivity|]; split; [apply tight_same; reflexivity|]; auto.
  - destruct k as [|k]; [contradiction|]. exists k. auto.
  - destruct (resume g s) as [[s1 ns1] o1] eqn:E. injection H as <- <- <-. eapply IH; eauto.
  - destruct Hg as (d0 & d1 & -> & A & B). destruct (IH _ _ _ _ _ _ B H) as (d2 & d3 & -> & T & R). exists (d0 + d2), d3. split; [lia|]. split; [|exact R].
    eapply tight_trans; [apply A|exact T].
  - eapply IH; [apply Hg|exact H].
Qed.
