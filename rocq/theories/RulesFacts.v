(** Proofs for C112: what is kept by learning and compiling is kept by every sequence of run() and step(). *)
From Coq Require Import Lia.
From Verif Require Import Base BaseFacts Chunks DecMem Buffers BufferFacts Productions ProdSpec CycleFacts LearnFacts Sim SimSpec StoryFacts LiftFacts Compile CompileSpec CompileFacts Run RunSpec RulesSpec.
Local Open Scope string_scope.
Local Open Scope list_scope.

Section Sessions.
Variable R : st -> st -> Prop.
Variable O : oracle.
Hypothesis A : about_rules R O.
Variable s0 : st.
Notation J := (inv (R s0) anyone (free R)).
Let gov := guided_governed R (about_refl R O A) (ar_trans R O A) O outside s0 (about_guided R O A).

Lemma keep_step X X' : J X -> sim_step O X = Some X' -> J X'.
Proof. apply (inv_step (R s0) anyone (free R) O outside gov). Qed.
Lemma keep_now u X : J X -> J (set_now u X).
Proof. intros [A1 A2 A3 A4 A5]. split; [exact A1|exact A2|exact A3|exact A4|apply all_anyone]. Qed.
Lemma keep_ss s X : R (ss X) s -> J X -> J (set_ss s X).
Proof. intros H [A1 A2 A3 A4 A5]. split; [exact (ar_trans R O A _ _ _ A1 H)|exact A2|exact A3|exact A4|apply all_anyone]. Qed.
Lemma keep_end X : J X -> J (fst (at_end O X)).
Proof.
  intros H. unfold at_end. destruct (peek X); [exact H|]. unfold compile_end. destruct (compile_now O (ss X)) as [[[[n a] rs]|]|e] eqn:E; try exact H.
  cbn [fst]. apply keep_ss; [exact (ar_compile R O A _ _ _ _ E)|exact H].
Qed.
Lemma keep_loop u X X' : loop O u X X' -> J X -> J X'.
Proof. intros L. induction L as [X t D|X D E|X X1 X2 D E F L IH]; auto. intros H. apply IH. exact (keep_step _ _ H F). Qed.
Lemma keep_drain X X' : drain O X X' -> J X -> J X'.
Proof. intros L. induction L as [X t D|X D E|X X1 X2 D E F L IH]; auto. intros H. apply IH. exact (keep_step _ _ H F). Qed.
Lemma keep_tick X X' : tick O X X' -> J X -> J X'.
Proof. intros (X1 & _ & E & D) H. exact (keep_drain _ _ D (keep_step _ _ H E)). Qed.
Lemma keep_run u X r : run O u X r -> J X -> J (fst r).
Proof.
  intros [L|X1 t L Lp D|X1 L Lp D] H; [exact H|exact (keep_loop _ _ _ Lp H)|]. apply keep_end, keep_now. exact (keep_loop _ _ _ Lp H).
Qed.
Lemma keep_steps l X r : step_ O l X r -> J X -> J (fst (fst r)).
Proof.
  intros H. induction H as [X|X X1 f Hd Ti D1|X X1 e Hd Ti D1 N1|X X1 X2 f Hd Ti D1 N1 E1|X X1 X2 r Hd Ti D1 N1 E1 Rr IH]; intros K; cbn [fst] in *; auto.
  - exact (keep_tick _ _ Ti K).
  - exact (keep_tick _ _ Ti K).
  - pose proof (keep_end X1 (keep_tick _ _ Ti K)) as Q. rewrite E1 in Q. exact Q.
  - apply IH. pose proof (keep_end X1 (keep_tick _ _ Ti K)) as Q. rewrite E1 in Q. exact Q.
Qed.
Lemma keep_session t env X l : (forall g, env = Some g -> outside g) -> session O t s0 env X l -> J X.
Proof.
  intros E H. induction H as [|u X l X' H IH Rn|X l X' l' H IH Rn].
  - apply (inv_init (R s0) anyone (free R) O outside gov); [apply (about_refl R O A)|exact E].
  - exact (keep_run _ _ _ Rn IH).
  - exact (keep_steps _ _ _ Rn IH).
Qed.
Theorem keep_left t env X : (forall g, env = Some g -> outside g) -> left_by O t s0 env X -> R s0 (ss X).
Proof.
  intros E H. apply (i_ss (R s0) anyone (free R)). destruct H as [X l H|X l u X' c H Rn|X l X' l' c H Rn].
  - exact (keep_session _ _ _ _ E H).
  - exact (keep_run _ _ _ Rn (keep_session _ _ _ _ E H)).
  - exact (keep_steps _ _ _ Rn (keep_session _ _ _ _ E H)).
Qed.
End Sessions.

(** ** The rules *)

Lemma but_refl r : but_utility r r. Proof. repeat split. Qed.
Lemma buts_refl d : but_utilities d d. Proof. induction d as [|p d IH]; constructor; [split; [reflexivity|apply but_refl]|exact IH]. Qed.
Lemma buts_trans a b c : but_utilities a b -> but_utilities b c -> but_utilities a c.
Proof.
  intros H. revert c. induction H as [|p q a b [E1 (F1 & F2 & F3)] H IH]; intros c K; inversion K as [|x r y c' [E2 (G1 & G2 & G3)] K']; subst; constructor; [|apply IH; exact K'].
  split; [congruence|]. repeat split; congruence.
Qed.
Lemma buts_util d n r u : dget d n = Some r -> but_utilities d (dset d n (set_util r u)).
Proof.
  induction d as [|[m x] d IH]; intros H; cbn [dget dset] in *; [discriminate|]. destruct (String.eqb m n).
  - injection H as ->. constructor; [|apply buts_refl]. split; [reflexivity|]. repeat split.
  - constructor; [split; [reflexivity|apply but_refl]|exact (IH H)].
Qed.
Lemma modify_buts now reward alpha used : forall rules rules', modify_utilities now reward alpha used rules = Ok rules' -> but_utilities rules rules'.
Proof.
  unfold modify_utilities. induction used as [|[m ts] used IH]; intros rules rules' H; cbn [fold_left rbind fst snd] in H.
  - injection H as <-. apply buts_refl.
  - assert (F : forall l e, fold_left (fun acc p => rs <- acc ;; match snd p with [] => Ok rs | ts => match dget rs (fst p) with None => Err EType
       | Some r => Ok (dset rs (fst p) (set_util r (fold_left (fun u t => learn alpha reward (now - t) u) ts (rutil r)))) end end) l (@Err (dict rule) e) = Err e)
      by (intro l; induction l as [|a0 l IHl]; intro e; cbn [fold_left rbind]; [reflexivity|apply IHl]).
    destruct ts as [|t ts]; [exact (IH _ _ H)|]. destruct (dget rules m) as [r|] eqn:E; [|rewrite F in H; discriminate].
    eapply buts_trans; [|exact (IH _ _ H)]. apply buts_util, E.
Qed.
Lemma learned_buts s ru t s' : learned s ru t = Ok s' -> but_utilities (srules s) (srules s') /\ sorder s' = sorder s /\ sp s' = sp s /\ (qlearn (sp s) = false -> srules s' = srules s).
Proof.
  unfold learned. destruct (rreward ru) as [rew|]; [|intros [= <-]; auto using buts_refl]. destruct (qlearn (sp s)); [|intros [= <-]; auto using buts_refl].
  destruct (modify_utilities _ _ _ _ _) as [rs|] eqn:M; [|discriminate]. cbn. intros [= <-]. cbn. repeat split; [exact (modify_buts _ _ _ _ _ _ M)|discriminate].
Qed.

(** Nothing is learned and nothing compiled. *)
Definition fixed (s s' : st) : Prop := qlearn (sp s) = false -> qcompile (sp s) = false -> sp s' = sp s /\ srules s' = srules s /\ sorder s' = sorder s.
Lemma about_fixed O : about_rules fixed O.
Proof.
  split.
  - intros s1 s2 s3 H K L C. destruct (H L C) as (E1 & E2 & E3). destruct (K ltac:(congruence) ltac:(congruence)) as (F1 & F2 & F3). repeat split; congruence.
  - intros s s' E1 E2 E3 E4 _ _. auto.
  - intros s ru t s' H L _. destruct (learned_buts _ _ _ _ H) as (_ & E & P & F). auto.
  - intros s n again rs E _ C. unfold compile_now in E. rewrite C in E. discriminate.
Qed.
Theorem rules_fixed O t s env S : (forall g, env = Some g -> outside g) -> qlearn (sp s) = false -> qcompile (sp s) = false -> left_by O t s env S ->
  srules (ss S) = srules s /\ sorder (ss S) = sorder s.
Proof. intros E L C H. apply (keep_left fixed O (about_fixed O) s t env S E H L C). Qed.

(** Nothing is compiled. *)
Definition learning (s s' : st) : Prop := qcompile (sp s) = false -> sp s' = sp s /\ but_utilities (srules s) (srules s') /\ sorder s' = sorder s.
Lemma about_learning O : about_rules learning O.
Proof.
  split.
  - intros s1 s2 s3 H K C. destruct (H C) as (E1 & E2 & E3). destruct (K ltac:(congruence)) as (F1 & F2 & F3). repeat split; [congruence|eapply buts_trans; eassumption|congruence].
  - intros s s' E1 E2 E3 E4 _. rewrite E3. auto using buts_refl.
  - intros s ru t s' H _. destruct (learned_buts _ _ _ _ H) as (B & E & P & F). auto.
  - intros s n again rs E C. unfold compile_now in E. rewrite C in E. discriminate.
Qed.
Theorem rules_learning O t s env S : (forall g, env = Some g -> outside g) -> qcompile (sp s) = false -> left_by O t s env S ->
  but_utilities (srules s) (srules (ss S)) /\ sorder (ss S) = sorder s.
Proof. intros E C H. apply (keep_left learning O (about_learning O) s t env S E H C). Qed.

(** Rules are compiled. *)
Theorem rules_compiling O tie t s env S : compiles_with O tie -> (forall g, env = Some g -> outside g) -> left_by O t s env S ->
  forall n r, dget (srules s) n = Some r -> exists r', dget (srules (ss S)) n = Some r' /\ but_utility r r'.
Proof.
  intros C E H. refine (keep_left (fun s s' => rules_kept (srules s) (srules s')) O _ s t env S E H). split.
  - intros s1 s2 s3. apply rules_kept_trans.
  - intros s1 s2 _ _ Er _. rewrite Er. apply rules_kept_refl.
  - intros s1 ru t1 s2 L. apply (learned_rules _ _ _ _ L).
  - intros s1 n again rs Ec. destruct (compile_now_inv _ _ _ _ C Ec) as (r1 & r2 & vals & _ & K). exact (compile_keeps _ _ _ _ _ _ _ _ K).
Qed.
Theorem rules_ranked O tie t s env S : compiles_with O tie -> (forall g, env = Some g -> outside g) -> left_by O t s env S -> all_ranked s -> all_ranked (ss S).
Proof.
  intros C E H. refine (keep_left (fun s s' => all_ranked s -> all_ranked s') O _ s t env S E H). split.
  - auto.
  - intros s1 s2 _ _ Er Eo K n. rewrite Er, Eo. apply K.
  - intros s1 ru t1 s2 L K n. destruct (learned_order _ _ _ _ L) as (B & _ & D). rewrite B, D. apply K.
  - intros s1 n again rs Ec K m. destruct (compile_now_inv _ _ _ _ C Ec) as (r1 & r2 & vals & _ & Ex). apply compile_keys in Ex. destruct Ex as [Ex _].
    cbn. rewrite in_app_iff, Ex, (K m). cbn. intuition.
Qed.

