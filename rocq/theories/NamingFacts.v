(** Proofs for C111. *)
From Verif Require Import Base BaseFacts Chunks ChunkFacts DecMem Buffers BufferFacts ModifyFacts HarvestFacts Model Naming NamingSpec.
From Coq Require Import Lia.
Local Open Scope string_scope.
Local Open Scope list_scope.
Local Open Scope nat_scope.

Lemma give_len w i m : List.length (bufs (give_dm w i m)) = List.length (bufs w).
Proof. unfold give_dm. destruct (nth_error (bufs w) i); [|reflexivity]. unfold set_buf. cbn [bufs]. apply upd_length. Qed.
Lemma give_all_len m names : forall w, List.length (bufs (give_all w names m)) = List.length (bufs w).
Proof. unfold give_all. induction names as [|p names IH]; intros w; [reflexivity|]. cbn [fold_left]. rewrite IH. apply give_len. Qed.
Lemma give_needy_len a names : forall w, List.length (bufs (fst (give_needy w a names))) = List.length (bufs w).
Proof.
  induction names as [|[x i] names IH]; intros w; [reflexivity|]. cbn [give_needy]. destruct (match buf_dm w i with Some m => mem_truthy w m | None => false end); [apply IH|].
  destruct (the_decmem a); [rewrite IH; apply give_len|reflexivity].
Qed.
Lemma assign_len w a : List.length (bufs (fst (assign_memories w a))) = List.length (bufs w).
Proof.
  unfold assign_memories. destruct (Nat.eqb _ 1).
  - destruct (the_decmem a); [apply give_all_len|reflexivity].
  - destruct (Nat.eqb _ 1); [apply give_needy_len|reflexivity].
Qed.

Lemma prepared w a env w' a' bs dms : prepare_simulation w a env = (w', Ok (a', bs, dms)) -> NoDup (dkeys (avis a)) ->
  abuffers a' = bs /\ avis a' = avis a /\ List.length (bufs w) <= List.length (bufs w') /\
  (forall n, ~ In n reserved -> (env = true -> dget (avis a) n = None) -> dget bs n = dget (abuffers a) n) /\
  (env = true -> forall n i, dget (avis a) n = Some i -> dget bs n = Some i).
Proof.
  intros P ND. unfold prepare_simulation in P. pose proof (assign_len w a) as L. destruct (assign_memories w a) as [w1 [u|e]]; [|discriminate P]. cbn [fst] in L.
  assert (M : forall n x, ~ In n reserved -> dget (dset (abuffers a) "manual" x) n = dget (abuffers a) n).
  { intros n x R. apply dget_dset_neq. intros <-. apply R. left. reflexivity. }
  destruct env; cbn [negb] in P.
  - destruct (avis a) as [|p v] eqn:V.
    + destruct (used_memories w1 (abuffers a)) as [|[? m] ?]; [discriminate P|]. injection P as <- <- <- <-. cbn [abuffers avis bufs]. repeat split; [rewrite !app_length; lia| |discriminate].
      intros n R _. rewrite !dget_dset_neq; [reflexivity| | |]; intros <-; apply R; cbn; tauto.
    + set (b2 := dupdate (dset (abuffers a) "manual" (List.length (bufs w1))) (p :: v)) in P.
      assert (Q : forall n, dget b2 n = match dget (p :: v) n with Some x => Some x | None => dget (dset (abuffers a) "manual" (List.length (bufs w1))) n end) by (intros n; apply dget_dupdate, ND).
      clearbody b2. injection P as <- <- <- <-. cbn [abuffers avis bufs]. repeat split; [rewrite !app_length; lia| |].
      * intros n R N. rewrite Q, (N eq_refl). apply M, R.
      * intros _ n i G. rewrite Q, G. reflexivity.
  - injection P as <- <- <- <-. cbn [abuffers avis bufs]. repeat split; [rewrite !app_length; lia| |discriminate]. intros n R _. apply M, R.
Qed.

Definition kept (env : bool) (h : list deed) (w : world) (n : nmodel) : Prop :=
  NoDup (dkeys (avis (nrest n))) /\ (forall x, dget (avis (nrest n)) x = last_visual x h) /\
  NoDup (dkeys (ngoals n)) /\ (forall x, dget (ngoals n) x = last_goal x h) /\
  NoDup (dkeys (nretrievals n)) /\ (forall x, dget (nretrievals n) x = last_retrieval x h) /\
  (forall x, ~ In x reserved -> (env = true -> last_visual x h = None) -> dget (abuffers (nrest n)) x = last_set x h) /\
  NoDup (returned h) /\ Forall (fun i => i < List.length (bufs w)) (returned h).

Lemma fresh_nat l m : Forall (fun i => i < m) l -> ~ In m l.
Proof. intros F I. rewrite Forall_forall in F. specialize (F _ I). lia. Qed.
Lemma more_nat l m m' : m <= m' -> Forall (fun i => i < m) l -> Forall (fun i => i < m') l.
Proof. intros L. apply Forall_impl. intros i. lia. Qed.

Lemma past_kept env h w n : past env h w n -> kept env h w n.
Proof.
  induction 1 as [w|h w w' n _ IH L|h w n name delay w' n' i _ IH E|h w n name w' n' i _ IH E|h w n what where' dm finst w' n' i j _ IH E|h w n w' n' bs _ IH E].
  - unfold kept. cbn -[String.eqb List.length app]. repeat split; try (repeat constructor; intros []; fail).
    + intros x. destruct (String.eqb "g" x) eqn:G; [apply String.eqb_eq in G; subst x; reflexivity|]. intros. reflexivity.
    + repeat constructor; [|intros []]. intros [A|[]]. lia.
    + rewrite app_length. cbn. repeat constructor; lia.
  - unfold kept in *. intuition. eapply more_nat; eassumption.
  - unfold named_goal in E. injection E as <- <- <-. destruct IH as (V1 & V2 & G1 & G2 & R1 & R2 & B & N & F). unfold kept. cbn -[String.eqb List.length app]. repeat split; auto.
    + apply dset_NoDup, G1.
    + intros x. rewrite dget_dset. destruct (String.eqb name x); [reflexivity|apply G2].
    + intros x R X. rewrite dget_dset. destruct (String.eqb name x); [reflexivity|apply B; assumption].
    + constructor; [apply fresh_nat, F|exact N].
    + rewrite app_length. cbn. constructor; [lia|]. eapply more_nat; [|exact F]. lia.
  - unfold named_retrieval in E. injection E as <- <- <-. destruct IH as (V1 & V2 & G1 & G2 & R1 & R2 & B & N & F). unfold kept. cbn -[String.eqb List.length app]. repeat split; auto.
    + apply dset_NoDup, R1.
    + intros x. rewrite dget_dset. destruct (String.eqb name x); [reflexivity|apply R2].
    + intros x R X. rewrite dget_dset. destruct (String.eqb name x); [reflexivity|apply B; assumption].
    + constructor; [apply fresh_nat, F|exact N].
    + rewrite app_length. cbn. constructor; [lia|]. eapply more_nat; [|exact F]. lia.
  - unfold visual_buffers in E. injection E as <- <- <- <-. destruct IH as (V1 & V2 & G1 & G2 & R1 & R2 & B & N & F). unfold kept. cbn -[String.eqb List.length app]. repeat split; auto.
    + apply dset_NoDup, dset_NoDup, V1.
    + intros x. rewrite !dget_dset. destruct (String.eqb where' x); [reflexivity|]. destruct (String.eqb what x); [reflexivity|apply V2].
    + intros x R X. apply B; [exact R|]. intros E. specialize (X E). destruct (String.eqb where' x); [discriminate X|]. destruct (String.eqb what x); [discriminate X|exact X].
    + constructor; [|constructor; [apply fresh_nat, F|exact N]]. intros [A|A]; [lia|]. rewrite Forall_forall in F. specialize (F _ A). lia.
    + rewrite app_length. cbn. repeat constructor; try lia. eapply more_nat; [|exact F]. lia.
  - unfold named_simulation in E. destruct (prepare_simulation w (nrest n) env) as [w1 [[[a bs'] dms]|e]] eqn:P; [|discriminate E]. injection E as <- <- <-.
    destruct IH as (V1 & V2 & G1 & G2 & R1 & R2 & B & N & F). destruct (prepared _ _ _ _ _ _ _ P V1) as (P1 & P2 & P3 & P4 & P5). unfold kept. cbn -[String.eqb List.length app].
    rewrite P2, P1. repeat split; auto.
    + intros x R X. rewrite P4; [apply B; assumption|exact R|]. intros E. rewrite V2. apply X, E.
    + eapply more_nat; eassumption.
Qed.

(** *** Theorems *)

Theorem used_by_name env h w n w' n' bs name : past env h w n -> named_simulation w n env = (w', Ok (n', bs)) ->
  ~ In name reserved -> (env = true -> last_visual name h = None) -> dget bs name = last_set name h.
Proof.
  intros H E R X. destruct (past_kept _ _ _ _ H) as (V1 & V2 & _ & _ & _ & _ & B & _). unfold named_simulation in E.
  destruct (prepare_simulation w (nrest n) env) as [w1 [[[a bs'] dms]|e]] eqn:P; [|discriminate E]. injection E as <- <- <-.
  destruct (prepared _ _ _ _ _ _ _ P V1) as (P1 & P2 & P3 & P4 & P5). rewrite P4; [apply B; assumption|exact R|]. intros E. rewrite V2. apply X, E.
Qed.
Theorem visual_by_name h w n w' n' bs name i : past true h w n -> named_simulation w n true = (w', Ok (n', bs)) -> last_visual name h = Some i -> dget bs name = Some i.
Proof.
  intros H E L. destruct (past_kept _ _ _ _ H) as (V1 & V2 & _). unfold named_simulation in E.
  destruct (prepare_simulation w (nrest n) true) as [w1 [[[a bs'] dms]|e]] eqn:P; [|discriminate E]. injection E as <- <- <-.
  destruct (prepared _ _ _ _ _ _ _ P V1) as (P1 & P2 & P3 & P4 & P5). apply P5; [reflexivity|]. rewrite V2. exact L.
Qed.
Theorem all_different env h w n : past env h w n -> NoDup (returned h) /\ forall i, In i (returned h) -> i < List.length (bufs w).
Proof. intros H. destruct (past_kept _ _ _ _ H) as (_ & _ & _ & _ & _ & _ & _ & N & F). split; [exact N|]. apply Forall_forall, F. Qed.

Lemma only_one (d : dict nat) k i : NoDup (dkeys d) -> dget d k = Some i -> (forall x, dget d x <> None -> x = k) -> only d = Ok i.
Proof.
  intros N G A. destruct d as [|[x j] [|[y j'] d]]; [discriminate G| |].
  - cbn in G |- *. destruct (String.eqb x k); [injection G as ->; reflexivity|discriminate G].
  - exfalso. assert (X : x = k). { apply A. cbn. rewrite String.eqb_refl. discriminate. }
    assert (Y : y = k). { apply A. cbn. destruct (String.eqb x y); [discriminate|]. rewrite String.eqb_refl. discriminate. }
    subst. inversion N as [|? ? N1 _]. apply N1. left. reflexivity.
Qed.
Lemma only_two (d : dict nat) k k' : dget d k <> None -> dget d k' <> None -> k <> k' -> only d = Err EValue.
Proof.
  intros K K' D. destruct d as [|[x j] [|p d]]; [reflexivity| |reflexivity]. cbn in K, K'. exfalso.
  destruct (String.eqb x k) eqn:A; [|apply K; reflexivity]. destruct (String.eqb x k') eqn:B; [|apply K'; reflexivity].
  apply String.eqb_eq in A. apply String.eqb_eq in B. congruence.
Qed.
Lemma first_names env h w n : past env h w n -> last_goal "g" h <> None /\ last_retrieval "retrieval" h <> None.
Proof.
  induction 1 as [w|h w w' n _ IH L|h w n name delay w' n' i _ IH E|h w n name w' n' i _ IH E|h w n what where' dm finst w' n' i j _ IH E|h w n w' n' bs _ IH E]; try exact IH.
  - split; discriminate.
  - destruct IH as [A B]. cbn [last_goal last_retrieval]. split; [|exact B]. destruct (String.eqb name "g"); [discriminate|exact A].
  - destruct IH as [A B]. cbn [last_goal last_retrieval]. split; [exact A|]. destruct (String.eqb name "retrieval"); [discriminate|exact B].
Qed.
Theorem goal_ok env h w n : past env h w n -> (forall x i, In (SetGoal x i) h -> x = "g") -> exists i, last_goal "g" h = Some i /\ the_goal n = Ok i.
Proof.
  intros H A. destruct (past_kept _ _ _ _ H) as (_ & _ & G1 & G2 & _). destruct (first_names _ _ _ _ H) as [F _]. destruct (last_goal "g" h) as [i|] eqn:L; [|congruence].
  exists i. split; [reflexivity|]. apply only_one with "g"; [exact G1|rewrite G2; exact L|]. intros x. rewrite G2. clear -A. intros X.
  induction h as [|d h IH]; [exfalso; apply X; reflexivity|]. destruct d; cbn [last_goal] in X; try (apply IH; [intros ? ? I; eapply A; right; exact I|exact X]).
  destruct (String.eqb name x) eqn:E; [apply String.eqb_eq in E; subst; eapply A; left; reflexivity|]. apply IH; [intros ? ? I; eapply A; right; exact I|exact X].
Qed.
Theorem retrieval_ok env h w n : past env h w n -> (forall x i, In (SetRetrieval x i) h -> x = "retrieval") -> exists i, last_retrieval "retrieval" h = Some i /\ the_retrieval n = Ok i.
Proof.
  intros H A. destruct (past_kept _ _ _ _ H) as (_ & _ & _ & _ & G1 & G2 & _). destruct (first_names _ _ _ _ H) as [_ F]. destruct (last_retrieval "retrieval" h) as [i|] eqn:L; [|congruence].
  exists i. split; [reflexivity|]. apply only_one with "retrieval"; [exact G1|rewrite G2; exact L|]. intros x. rewrite G2. clear -A. intros X.
  induction h as [|d h IH]; [exfalso; apply X; reflexivity|]. destruct d; cbn [last_retrieval] in X; try (apply IH; [intros ? ? I; eapply A; right; exact I|exact X]).
  destruct (String.eqb name x) eqn:E; [apply String.eqb_eq in E; subst; eapply A; left; reflexivity|]. apply IH; [intros ? ? I; eapply A; right; exact I|exact X].
Qed.
Lemma in_goal x i h : In (SetGoal x i) h -> last_goal x h <> None.
Proof.
  induction h as [|d h IH]; [intros []|]. intros [->|I]; cbn [last_goal]; [rewrite String.eqb_refl; discriminate|].
  specialize (IH I). destruct d; try exact IH. destruct (String.eqb name x); [discriminate|exact IH].
Qed.
Lemma in_retrieval x i h : In (SetRetrieval x i) h -> last_retrieval x h <> None.
Proof.
  induction h as [|d h IH]; [intros []|]. intros [->|I]; cbn [last_retrieval]; [rewrite String.eqb_refl; discriminate|].
  specialize (IH I). destruct d; try exact IH. destruct (String.eqb name x); [discriminate|exact IH].
Qed.
Theorem goal_error env h w n x i : past env h w n -> In (SetGoal x i) h -> x <> "g" -> the_goal n = Err EValue.
Proof.
  intros H I D. destruct (past_kept _ _ _ _ H) as (_ & _ & _ & G2 & _). destruct (first_names _ _ _ _ H) as [F _]. apply only_two with x "g"; [|rewrite G2; exact F|exact D].
  rewrite G2. eapply in_goal, I.
Qed.
Theorem retrieval_error env h w n x i : past env h w n -> In (SetRetrieval x i) h -> x <> "retrieval" -> the_retrieval n = Err EValue.
Proof.
  intros H I D. destruct (past_kept _ _ _ _ H) as (_ & _ & _ & _ & _ & G2 & _). destruct (first_names _ _ _ _ H) as [_ F]. apply only_two with x "retrieval"; [|rewrite G2; exact F|exact D].
  rewrite G2. eapply in_retrieval, I.
Qed.
Lemma set_is_goal x h : last_retrieval x h = None -> last_set x h = last_goal x h.
Proof. induction h as [|d h IH]; [reflexivity|]. destruct d; cbn [last_retrieval last_set last_goal]; try exact IH; destruct (String.eqb name x); auto; discriminate. Qed.
Theorem goal_used env h w n w' n' bs i : past env h w n -> named_simulation w n env = (w', Ok (n', bs)) -> the_goal n = Ok i ->
  last_retrieval "g" h = None -> last_visual "g" h = None -> dget bs "g" = Some i.
Proof.
  intros H E G R V. rewrite (used_by_name _ _ _ _ _ _ _ "g" H E); [|intros [X|[X|[X|[]]]]; discriminate X|intros _; exact V]. rewrite (set_is_goal _ _ R).
  destruct (goal_ok _ _ _ _ H) as (j & L & O).
  - intros x k I. destruct (String.eqb x "g") eqn:X; [apply String.eqb_eq, X|]. apply String.eqb_neq in X. rewrite (goal_error _ _ _ _ _ _ H I X) in G. discriminate G.
  - rewrite L. congruence.
Qed.

(** *** Witnesses *)

Definition w0 : world := MkW [] [] [].
(** model.goal = "imaginal": then model.goal. *)
Theorem setter_refuted : exists h w n n' i, past false h w n /\ named_goal w n "imaginal" 0 = (fst (fst (named_goal w n "imaginal" 0)), n', i) /\
  the_goal n = Ok 0 /\ the_goal n' = Err EValue.
Proof.
  exists [SetRetrieval "retrieval" 1; SetGoal "g" 0], (fst (named_model w0)), (snd (named_model w0)), (snd (fst (named_goal (fst (named_model w0)) (snd (named_model w0)) "imaginal" 0))), 2.
  split; [apply (past_new false w0)|]. split; [|split]; reflexivity.
Qed.
(** A retrieval buffer with the name g: model.goal is a buffer that no simulation uses. *)
Definition shadowed : list deed * world * nmodel :=
  match named_retrieval (fst (named_model w0)) (snd (named_model w0)) "g" with (w, n, i) => ([SetRetrieval "g" i; SetRetrieval "retrieval" 1; SetGoal "g" 0], w, n) end.
Theorem shadow_refuted : exists h w n w' n' bs, past false h w n /\ named_simulation w n false = (w', Ok (n', bs)) /\ the_goal n = Ok 0 /\ forall name, dget bs name <> Some 0.
Proof.
  destruct shadowed as [[h w] n] eqn:S0. exists h, w, n. destruct (named_simulation w n false) as [w' r] eqn:E. destruct r as [[n' bs]|e]; [|exfalso; inversion S0; subst; discriminate E].
  exists w', n', bs. split; [|split; [reflexivity|split]].
  - inversion S0; subst. eapply past_retrieval; [apply (past_new false w0)|reflexivity].
  - inversion S0; subst. reflexivity.
  - inversion S0; subst. vm_compute in E. injection E as _ _ <-. intros name. unfold dget. destruct (String.eqb "g" name); [discriminate|]. destruct (String.eqb "retrieval" name); [discriminate|]. destruct (String.eqb "manual" name); discriminate.
Qed.
(** A goal buffer with the name manual is replaced by the motor module. *)
Theorem manual_refuted : exists h w n w' n' bs i, past false h w n /\ named_simulation w n false = (w', Ok (n', bs)) /\ last_set "manual" h = Some i /\ dget bs "manual" <> Some i.
Proof.
  destruct (named_goal (fst (named_model w0)) (snd (named_model w0)) "manual" 0) as [[w n] i] eqn:S0. exists (SetGoal "manual" i :: [SetRetrieval "retrieval" 1; SetGoal "g" 0]), w, n.
  destruct (named_simulation w n false) as [w' r] eqn:E. destruct r as [[n' bs]|e]; [|exfalso; inversion S0; subst; discriminate E].
  exists w', n', bs, i. split; [|split; [reflexivity|split]].
  - eapply past_goal; [apply (past_new false w0)|exact S0].
  - reflexivity.
  - inversion S0; subst. vm_compute in E. injection E as _ _ <-. discriminate.
Qed.
(** A model with an environment, a second goal buffer, visual buffers and two simulations. *)
Theorem names_used : exists h w n w' n' bs, past true h w n /\ named_simulation w n true = (w', Ok (n', bs)) /\ In Simulated h /\ ~ In "imaginal" reserved /\ last_visual "imaginal" h = None /\
  dget bs "imaginal" = Some 2 /\ dget bs "what" = Some 3 /\ dget bs "where" = Some 4 /\ dget bs "g" = Some 0 /\ last_retrieval "g" h = None /\ last_visual "g" h = None.
Proof.
  pose (m1 := named_goal (fst (named_model w0)) (snd (named_model w0)) "imaginal" 0). pose (m2 := visual_buffers (fst (fst m1)) (snd (fst m1)) "what" "where" None 4).
  destruct (named_simulation (fst (fst m2)) (snd (fst m2)) true) as [w r] eqn:E1. destruct r as [[n b1]|e]; [|exfalso; vm_compute in E1; discriminate E1].
  destruct (named_simulation w n true) as [w' r] eqn:E2. destruct r as [[n' bs]|e]; [|exfalso; vm_compute in E1; injection E1 as <- <- <-; vm_compute in E2; discriminate E2].
  exists [Simulated; VisualBuffer "what" 3 "where" 4; SetGoal "imaginal" 2; SetRetrieval "retrieval" 1; SetGoal "g" 0], w, n, w', n', bs.
  split.
  { eapply past_simulation; [|exact E1]. apply (past_visual true _ (fst (fst m1)) (snd (fst m1)) "what" "where" None 4); [|reflexivity]. apply (past_goal true _ (fst (named_model w0)) (snd (named_model w0)) "imaginal" 0); [apply (past_new true w0)|reflexivity]. }
  split; [exact E2|]. split; [left; reflexivity|]. split; [intros [X|[X|[X|[]]]]; discriminate X|].
  vm_compute in E1. injection E1 as <- <- _. vm_compute in E2. injection E2 as _ _ <-. repeat split.
Qed.
(** A goal buffer set again by its first name. *)
Theorem goal_there : exists h w n w' n' bs, past false h w n /\ (forall x i, In (SetGoal x i) h -> x = "g") /\ (forall x i, In (SetRetrieval x i) h -> x = "retrieval") /\
  named_simulation w n false = (w', Ok (n', bs)) /\ the_goal n = Ok 2 /\ the_retrieval n = Ok 1 /\ last_retrieval "g" h = None /\ last_visual "g" h = None /\ dget bs "g" = Some 2.
Proof.
  destruct (named_goal (fst (named_model w0)) (snd (named_model w0)) "g" 0) as [[w n] i] eqn:S0. exists (SetGoal "g" i :: [SetRetrieval "retrieval" 1; SetGoal "g" 0]), w, n.
  destruct (named_simulation w n false) as [w' r] eqn:E. destruct r as [[n' bs]|e]; [|exfalso; inversion S0; subst; discriminate E].
  exists w', n', bs. split; [eapply past_goal; [apply (past_new false w0)|exact S0]|]. split; [intros x j [X|[X|[X|[]]]]; congruence|]. split; [intros x j [X|[X|[X|[]]]]; congruence|].
  split; [reflexivity|]. inversion S0; subst. vm_compute in E. injection E as _ _ <-. repeat split.
Qed.
