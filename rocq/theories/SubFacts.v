(** Proofs about activation and latency (C23, C24, C25, C72 to C75). *)
From Coq Require Import Reals Qreals Lra Permutation.
From Verif Require Import BaseFacts Chunks ChunkFacts ChunkMatch ChunkGround TypeFacts ResolveFacts DecMem DecMemFacts FanFacts Buffers BufferFacts ModifyFacts RetrieveFacts Subsymbolic.
From Verif Require Import ChunkSpec.
Local Open Scope string_scope.
Local Open Scope R_scope.
Arguments hval_eqb : simpl never.
Arguments hash_value : simpl nomatch.
Arguments val_eqb : simpl nomatch.

(** ** Specification *)

Definition past (now t : Q) : Prop := (t < now)%Q.

(** ** Powers *)

Lemma past_iff now t : is_past now t = true <-> past now t.
Proof.
  unfold is_past, past. rewrite negb_true_iff. split; intros H.
  - apply Qnot_le_lt. intros X. apply Qle_bool_iff in X. congruence.
  - destruct (Qle_bool now t) eqn:E; [|reflexivity]. apply Qle_bool_iff in E. exfalso. apply (Qle_not_lt _ _ E H).
Qed.
Lemma pasts_iff now ts : forallb (is_past now) ts = true <-> Forall (past now) ts.
Proof. rewrite forallb_forall, Forall_forall. split; intros H t Ht; apply past_iff; apply H; exact Ht. Qed.

Lemma past_pos now t : past now t -> 0 < Q2R now - Q2R t.
Proof. intros H. apply Qlt_Rlt in H. lra. Qed.
Lemma later_closer t t' : (t < t')%Q -> Q2R t < Q2R t'.
Proof. apply Qlt_Rlt. Qed.

Lemma power_pos x d : 0 < Rpower x d.
Proof. apply exp_pos. Qed.
Lemma power_decr x y d : 0 < d -> 0 < x -> x < y -> Rpower y (- d) < Rpower x (- d).
Proof.
  intros Hd Hx Hy. unfold Rpower. apply exp_increasing.
  assert (L : ln x < ln y) by (apply ln_increasing; assumption).
  assert (d * ln x < d * ln y) by (apply Rmult_lt_compat_l; assumption). lra.
Qed.

Lemma powers_nonneg now d ts : 0 <= powers now d ts.
Proof. induction ts as [|t ts IH]; simpl; [lra|]. pose proof (power_pos (Q2R now - Q2R t) (- d)). lra. Qed.
Lemma powers_pos now d ts : ts <> [] -> 0 < powers now d ts.
Proof. destruct ts as [|t ts]; [congruence|]. intros _. simpl. pose proof (power_pos (Q2R now - Q2R t) (- d)). pose proof (powers_nonneg now d ts). lra. Qed.
Lemma powers_perm now d ts ts' : Permutation ts ts' -> powers now d ts = powers now d ts'.
Proof. induction 1; simpl; try lra. Qed.
Lemma powers_decr now now' d ts : 0 < d -> (now < now')%Q -> Forall (past now) ts -> ts <> [] -> powers now' d ts < powers now d ts.
Proof.
  intros Hd Hn F N. assert (G : forall ts, Forall (past now) ts -> powers now' d ts <= powers now d ts /\ (ts <> [] -> powers now' d ts < powers now d ts)).
  { induction 1 as [|t l P _ IH]; simpl; [split; [lra|congruence]|].
    pose proof (power_decr (Q2R now - Q2R t) (Q2R now' - Q2R t) d Hd (past_pos _ _ P)) as X.
    apply later_closer in Hn. assert (Y : Q2R now - Q2R t < Q2R now' - Q2R t) by lra. specialize (X Y). destruct IH. split; [lra|intros _; lra]. }
  apply (G ts F). exact N.
Qed.

(** ** The latest time *)

Lemma latest_spec l : forall t, In (latest t l) (t :: l) /\ forall x, In x (t :: l) -> (x <= latest t l)%Q.
Proof.
  induction l as [|y l IH]; intros t; simpl.
  - split; [auto|]. intros x [<-|[]]. apply Qle_refl.
  - destruct (IH (if Qle_bool y t then t else y)) as (I1 & I2). split.
    + destruct (Qle_bool y t); simpl in I1; tauto.
    + assert (E : (t <= if Qle_bool y t then t else y)%Q /\ (y <= if Qle_bool y t then t else y)%Q).
      { destruct (Qle_bool y t) eqn:E; [apply Qle_bool_iff in E; split; [apply Qle_refl|exact E]|split; [|apply Qle_refl]].
        apply Qlt_le_weak, Qnot_le_lt. intros X. apply Qle_bool_iff in X. congruence. }
      pose proof (I2 _ (or_introl eq_refl)) as Z. intros x [<-|[<-|H]]; [destruct E as [E _]|destruct E as [_ E]|].
      * eapply Qle_trans; eassumption.
      * eapply Qle_trans; eassumption.
      * apply I2. right. exact H.
Qed.

(** ** Base levels *)

(** [b] is what is left of the base level. *)
Definition adds (act : option R) (r : R) : R := match act with Some a => ln (exp r + exp a) | None => r end.
Lemma adds_mono act r r' : r < r' -> adds act r < adds act r'.
Proof.
  intros H. destruct act as [a|]; simpl; [|exact H]. apply ln_increasing; [pose proof (exp_pos r); pose proof (exp_pos a); lra|].
  pose proof (exp_increasing r r' H). lra.
Qed.
Lemma adds_more a r : a < adds (Some a) r.
Proof. simpl. rewrite <- (ln_exp a) at 1. apply ln_increasing; [apply exp_pos|]. pose proof (exp_pos r). lra. Qed.

Lemma baselevel_plain now ts d act : Forall (past now) ts -> ts <> [] -> baselevel now ts true d act false = BVal (adds act (ln (powers now d ts))).
Proof.
  intros F N. unfold baselevel, level_plain. apply pasts_iff in F. rewrite F. destruct ts; [congruence|]. destruct act; reflexivity.
Qed.
Definition opt_level (now : Q) (d : R) (n : nat) (t : Q) : R := ln (INR n / (1 - d)) - d * ln (Q2R now - Q2R t).
Lemma baselevel_optimized now t l d act : Forall (past now) (t :: l) -> d < 1 ->
  baselevel now (t :: l) true d act true = BVal (adds act (opt_level now d (List.length (t :: l)) (latest t l))).
Proof.
  intros F D. unfold baselevel, level_optimized. destruct (Rlt_dec d 1); [|contradiction].
  destruct (latest_spec l t) as (I & _). rewrite Forall_forall in F. rewrite (proj2 (past_iff now (latest t l)) (F _ I)). destruct act; reflexivity.
Qed.
Lemma latest_perm t l t' l' : Permutation (t :: l) (t' :: l') -> Q2R (latest t l) = Q2R (latest t' l').
Proof.
  intros P. destruct (latest_spec l t) as (I & U), (latest_spec l' t') as (I' & U'). apply Qeq_eqR, Qle_antisym.
  - apply U'. eapply Permutation_in; eassumption.
  - apply U. eapply Permutation_in; [apply Permutation_sym; exact P|exact I'].
Qed.

Lemma opt_more now d n n' t t' : 0 < d < 1 -> (0 < n)%nat -> past now t' -> (n <= n')%nat -> Q2R t <= Q2R t' ->
  opt_level now d n t <= opt_level now d n' t' /\ ((n < n')%nat -> opt_level now d n t < opt_level now d n' t').
Proof.
  intros Hd Hn P Hle Ht. unfold opt_level. pose proof (past_pos _ _ P) as Pp.
  assert (A : ln (Q2R now - Q2R t') <= ln (Q2R now - Q2R t)).
  { destruct (Rle_lt_or_eq_dec _ _ Ht) as [L|E]; [left; apply ln_increasing; lra|right; rewrite E; reflexivity]. }
  assert (B : d * ln (Q2R now - Q2R t') <= d * ln (Q2R now - Q2R t)) by (apply Rmult_le_compat_l; lra).
  assert (C : forall a b, (0 < a)%nat -> (a < b)%nat -> ln (INR a / (1 - d)) < ln (INR b / (1 - d))).
  { intros a b Ha Hb. apply lt_INR in Hb. apply lt_0_INR in Ha. apply ln_increasing.
    - apply Rmult_lt_0_compat; [exact Ha|]. apply Rinv_0_lt_compat. lra.
    - apply Rmult_lt_compat_r; [apply Rinv_0_lt_compat; lra|exact Hb]. }
  split.
  - apply Nat.lt_eq_cases in Hle. destruct Hle as [L|E]; [specialize (C n n' Hn L); lra|subst; lra].
  - intros L. specialize (C n n' Hn L). lra.
Qed.

(** C24: one more presentation. *)
Theorem practice now ts ts' t d act opt :
  0 < d -> (opt = true -> d < 1) -> Permutation ts' (t :: ts) -> Forall (past now) (t :: ts) ->
  exists r', baselevel now ts' true d act opt = BVal r' /\
    match baselevel now ts true d act opt with
    | BVal r => r < r'
    | BUnset => ts = [] /\ act = None
    | BRaise _ => False
    end.
Proof.
  intros Hd Ho P F. assert (F' : Forall (past now) ts') by (eapply Permutation_Forall; [apply Permutation_sym; exact P|exact F]).
  assert (N' : ts' <> []) by (intros ->; apply Permutation_length in P; discriminate). inversion F as [|? ? Pt Ft]. subst.
  destruct opt.
  - specialize (Ho eq_refl). destruct ts' as [|t' l']; [congruence|]. rewrite baselevel_optimized by assumption. eexists. split; [reflexivity|].
    destruct ts as [|u l].
    + unfold baselevel. destruct act as [a|]; [apply adds_more|auto].
    + rewrite baselevel_optimized by assumption. apply adds_mono. rewrite (Permutation_length P).
      destruct (latest_spec l' t') as (I1 & U1), (latest_spec l u) as (I2 & U2).
      apply opt_more; [lra|simpl; lia| |simpl; lia| |simpl; lia].
      * rewrite Forall_forall in F'. apply F'. exact I1.
      * apply Qle_Rle. apply U1. eapply Permutation_in; [apply Permutation_sym; exact P|]. right. exact I2.
  - rewrite baselevel_plain by assumption. eexists. split; [reflexivity|]. destruct ts as [|u l].
    + unfold baselevel. destruct act as [a|]; [apply adds_more|auto].
    + rewrite baselevel_plain by (assumption || discriminate). apply adds_mono. rewrite (powers_perm _ _ _ _ P). apply ln_increasing.
      * apply powers_pos. discriminate.
      * remember (u :: l) as ul. simpl. pose proof (power_pos (Q2R now - Q2R t) (- d)). lra.
Qed.

(** C24: a later presentation in place of an earlier one. *)
Theorem recent_counts_more now ts t t' ts1 ts2 d act :
  0 < d -> (t < t')%Q -> past now t' -> Forall (past now) ts -> Permutation ts1 (t :: ts) -> Permutation ts2 (t' :: ts) ->
  exists r r', baselevel now ts1 true d act false = BVal r /\ baselevel now ts2 true d act false = BVal r' /\ r < r'.
Proof.
  intros Hd Ht P' F P1 P2. assert (P : past now t) by (unfold past in *; eapply Qlt_trans; eassumption).
  assert (F1 : Forall (past now) ts1) by (eapply Permutation_Forall; [apply Permutation_sym; exact P1|constructor; assumption]).
  assert (F2 : Forall (past now) ts2) by (eapply Permutation_Forall; [apply Permutation_sym; exact P2|constructor; assumption]).
  assert (N1 : ts1 <> []) by (intros ->; apply Permutation_length in P1; discriminate).
  assert (N2 : ts2 <> []) by (intros ->; apply Permutation_length in P2; discriminate).
  eexists _, _. split; [apply baselevel_plain; assumption|]. split; [apply baselevel_plain; assumption|]. apply adds_mono.
  rewrite (powers_perm _ _ _ _ P1), (powers_perm _ _ _ _ P2). apply ln_increasing; [apply powers_pos; discriminate|]. simpl.
  pose proof (power_decr (Q2R now - Q2R t') (Q2R now - Q2R t) d Hd (past_pos _ _ P')) as X. apply later_closer in Ht. lra.
Qed.
(** With optimized learning it never counts less. *)
Theorem recent_counts_optimized now ts t t' ts1 ts2 d act :
  0 < d < 1 -> (t < t')%Q -> past now t' -> Forall (past now) ts -> Permutation ts1 (t :: ts) -> Permutation ts2 (t' :: ts) ->
  exists r r', baselevel now ts1 true d act true = BVal r /\ baselevel now ts2 true d act true = BVal r' /\ r <= r'.
Proof.
  intros Hd Ht P' F P1 P2. assert (P : past now t) by (unfold past in *; eapply Qlt_trans; eassumption).
  assert (F1 : Forall (past now) ts1) by (eapply Permutation_Forall; [apply Permutation_sym; exact P1|constructor; assumption]).
  assert (F2 : Forall (past now) ts2) by (eapply Permutation_Forall; [apply Permutation_sym; exact P2|constructor; assumption]).
  destruct ts1 as [|t1 l1]; [apply Permutation_length in P1; discriminate|]. destruct ts2 as [|t2 l2]; [apply Permutation_length in P2; discriminate|].
  eexists _, _. split; [apply baselevel_optimized; [assumption|lra]|]. split; [apply baselevel_optimized; [assumption|lra]|].
  assert (M : forall a b, a <= b -> adds act a <= adds act b).
  { intros a b [L|E]; [left; apply adds_mono; exact L|right; rewrite E; reflexivity]. }
  apply M. apply opt_more; [exact Hd|simpl; lia| | |].
  - destruct (latest_spec l2 t2) as (I & _). rewrite Forall_forall in F2. apply F2. exact I.
  - apply Permutation_length in P1. apply Permutation_length in P2. simpl in *. lia.
  - rewrite (latest_perm _ _ _ _ P1), (latest_perm _ _ _ _ P2). destruct (latest_spec ts t) as (I & _), (latest_spec ts t') as (I' & U').
    apply Qle_Rle. destruct I as [E|I]; [|apply U'; right; exact I].
    rewrite <- E. eapply Qle_trans; [apply Qlt_le_weak; exact Ht|]. apply U'. left. reflexivity.
Qed.

(** C24: as time passes. *)
Theorem decays now now' ts d act opt :
  0 < d -> (opt = true -> d < 1) -> (now < now')%Q -> Forall (past now) ts -> ts <> [] ->
  exists r r', baselevel now ts true d act opt = BVal r /\ baselevel now' ts true d act opt = BVal r' /\ r' < r.
Proof.
  intros Hd Ho Hn F N. assert (F' : Forall (past now') ts) by (eapply Forall_impl; [|exact F]; intros t H; unfold past in *; eapply Qlt_trans; eassumption).
  destruct opt.
  - destruct ts as [|t l]; [congruence|]. specialize (Ho eq_refl). eexists _, _.
    split; [apply baselevel_optimized; assumption|]. split; [apply baselevel_optimized; assumption|]. apply adds_mono. unfold opt_level.
    destruct (latest_spec l t) as (I & _). rewrite Forall_forall in F. pose proof (past_pos _ _ (F _ I)) as Pp. apply later_closer in Hn.
    assert (A : ln (Q2R now - Q2R (latest t l)) < ln (Q2R now' - Q2R (latest t l))) by (apply ln_increasing; lra).
    assert (d * ln (Q2R now - Q2R (latest t l)) < d * ln (Q2R now' - Q2R (latest t l))) by (apply Rmult_lt_compat_l; assumption). lra.
  - eexists _, _. split; [apply baselevel_plain; assumption|]. split; [apply baselevel_plain; assumption|]. apply adds_mono.
    apply ln_increasing; [apply powers_pos; exact N|]. apply powers_decr; assumption.
Qed.

(** Optimized learning always gives more, by at least ln (1 / (1 - d)). *)
Theorem optimized_more now ts d : 0 < d < 1 -> Forall (past now) ts -> ts <> [] ->
  exists r r', baselevel now ts true d None false = BVal r /\ baselevel now ts true d None true = BVal r' /\ r + ln (1 / (1 - d)) <= r'.
Proof.
  intros Hd F N. destruct ts as [|t l]; [congruence|]. eexists _, _. split; [apply baselevel_plain; [assumption|discriminate]|].
  split; [apply baselevel_optimized; [assumption|lra]|]. unfold adds, opt_level.
  destruct (latest_spec l t) as (I & U). set (m := latest t l) in *.
  assert (Pm : past now m) by (rewrite Forall_forall in F; apply F; exact I).
  assert (B : forall ts, (forall x, In x ts -> (x <= m)%Q) -> powers now d ts <= INR (List.length ts) * Rpower (Q2R now - Q2R m) (- d)).
  { induction ts as [|x ts IH]; intros Hx; [simpl; lra|]. rewrite (Nat.add_1_r (List.length ts) : List.length (x :: ts) = (List.length ts + 1)%nat) || idtac.
    change (List.length (x :: ts)) with (S (List.length ts)). rewrite S_INR. simpl powers.
    assert (Y : Rpower (Q2R now - Q2R x) (- d) <= Rpower (Q2R now - Q2R m) (- d)).
    { assert (Z : Q2R x <= Q2R m) by (apply Qle_Rle, Hx; left; reflexivity). pose proof (past_pos _ _ Pm).
      destruct (Rle_lt_or_eq_dec _ _ Z) as [L|E]; [left; apply power_decr; lra|right; rewrite E; reflexivity]. }
    specialize (IH (fun y H => Hx y (or_intror H))). lra. }
  specialize (B (t :: l) U). assert (Pp : 0 < powers now d (t :: l)) by (apply powers_pos; discriminate).
  assert (L : ln (powers now d (t :: l)) <= ln (INR (List.length (t :: l)) * Rpower (Q2R now - Q2R m) (- d))).
  { destruct B as [B|B]; [left; apply ln_increasing; assumption|right; rewrite B; reflexivity]. }
  assert (Pn : 0 < INR (List.length (t :: l))) by (apply lt_0_INR; simpl; lia).
  assert (Pi : 0 < 1 / (1 - d)) by (apply Rdiv_lt_0_compat; lra).
  assert (E1 : ln (INR (List.length (t :: l)) * Rpower (Q2R now - Q2R m) (- d)) = ln (INR (List.length (t :: l))) - d * ln (Q2R now - Q2R m)).
  { rewrite ln_mult; [|exact Pn|apply power_pos]. unfold Rpower. rewrite ln_exp. lra. }
  assert (E2 : ln (INR (List.length (t :: l)) / (1 - d)) = ln (INR (List.length (t :: l))) + ln (1 / (1 - d))).
  { rewrite <- ln_mult by assumption. f_equal. field. lra. }
  rewrite E1 in L. rewrite E2. lra.
Qed.

(** ** Presentations that are not in the past *)

Lemma drop_first_perm t l : (exists x, In x l /\ (x == t)%Q) -> exists x, (x == t)%Q /\ Permutation l (x :: drop_first t l).
Proof.
  induction l as [|y l IH]; intros (x & Hin & E); [destruct Hin|]. simpl. destruct (Qeq_bool y t) eqn:Ey.
  - exists y. split; [apply Qeq_bool_iff; exact Ey|]. apply Permutation_refl.
  - destruct Hin as [->|Hin]; [apply Qeq_bool_iff in E; congruence|]. destruct IH as (z & Ez & P); [eauto|].
    exists z. split; [exact Ez|]. eapply Permutation_trans; [apply perm_skip; exact P|]. apply perm_swap.
Qed.
Lemma drop_latest_perm ts : ts <> [] -> exists x, Permutation ts (x :: drop_latest ts) /\ forall y, In y ts -> (y <= x)%Q.
Proof.
  destruct ts as [|t l]; [congruence|]. intros _. destruct (latest_spec l t) as (I & U).
  destruct (drop_first_perm (latest t l) (t :: l)) as (x & E & P); [exists (latest t l); split; [exact I|reflexivity]|].
  exists x. split; [exact P|]. intros y Hy. rewrite E. apply U. exact Hy.
Qed.

(** One presentation that is not in the past is ignored. *)
Theorem one_ignored now ts t ts' d act :
  ~ past now t -> Forall (past now) ts -> Permutation ts' (t :: ts) ->
  baselevel now ts' true d act false = baselevel now ts true d act false.
Proof.
  intros Nt F P. assert (N' : ts' <> []) by (intros ->; apply Permutation_length in P; discriminate).
  destruct (drop_latest_perm ts' N') as (x & Px & U).
  assert (It : In t ts') by (eapply Permutation_in; [apply Permutation_sym; exact P|left; reflexivity]).
  assert (Ix : In x (t :: ts)) by (eapply Permutation_in; [exact P|]; eapply Permutation_in; [apply Permutation_sym; exact Px|left; reflexivity]).
  assert (x = t).
  { destruct Ix as [E|Ix]; [congruence|]. exfalso. apply Nt. rewrite Forall_forall in F. specialize (F x Ix). unfold past in *.
    eapply Qle_lt_trans; [apply U; exact It|exact F]. }
  subst x. assert (Pd : Permutation (drop_latest ts') ts).
  { eapply Permutation_cons_inv. eapply Permutation_trans; [apply Permutation_sym; exact Px|exact P]. }
  assert (Fd : Forall (past now) (drop_latest ts')) by (eapply Permutation_Forall; [apply Permutation_sym; exact Pd|exact F]).
  assert (X : level_plain now d ts' = match ts with [] => BUnset | _ => BVal (ln (powers now d ts)) end).
  { unfold level_plain. destruct (forallb (is_past now) ts') eqn:Ef.
    { apply pasts_iff in Ef. rewrite Forall_forall in Ef. elim Nt. apply Ef. exact It. }
    destruct (drop_latest ts') as [|u l] eqn:Ed.
    - apply Permutation_nil in Pd. subst ts. reflexivity.
    - apply pasts_iff in Fd. rewrite Fd. destruct ts as [|v l']; [apply Permutation_sym, Permutation_nil in Pd; discriminate|].
      rewrite (powers_perm _ _ _ _ Pd). reflexivity. }
  unfold baselevel. destruct ts' as [|u l]; [congruence|]. cbv zeta. rewrite X. destruct ts as [|v l']; [reflexivity|].
  unfold level_plain. apply pasts_iff in F. rewrite F. reflexivity.
Qed.

(** Two such presentations are an error, which nothing catches. *)
Theorem two_raise now ts t t' ts' d act :
  ~ past now t -> ~ past now t' -> Permutation ts' (t :: t' :: ts) -> baselevel now ts' true d act false = BRaise EWarning.
Proof.
  intros Nt Nt' P. assert (N' : ts' <> []) by (intros ->; apply Permutation_length in P; discriminate).
  destruct (drop_latest_perm ts' N') as (x & Px & U).
  assert (Q : exists y, In y (drop_latest ts') /\ ~ past now y).
  { pose proof (Permutation_trans (Permutation_sym Px) P) as P2.
    destruct (in_inv (Permutation_in _ P2 (or_introl eq_refl))) as [<-|I].
    - apply Permutation_cons_inv in P2. exists t'. split; [eapply Permutation_in; [apply Permutation_sym; exact P2|left; reflexivity]|exact Nt'].
    - assert (It : In t (x :: drop_latest ts')) by (eapply Permutation_in; [apply Permutation_sym; exact P2|left; reflexivity]).
      destruct It as [E|It]; [|exists t; auto]. subst x.
      apply Permutation_cons_inv in P2. exists t'. split; [eapply Permutation_in; [apply Permutation_sym; exact P2|left; reflexivity]|exact Nt']. }
  destruct Q as (y & Iy & Ny).
  assert (X : level_plain now d ts' = BRaise EWarning).
  { unfold level_plain. destruct (forallb (is_past now) ts') eqn:Ef.
    { apply pasts_iff in Ef. rewrite Forall_forall in Ef. elim Nt. apply Ef. eapply Permutation_in; [apply Permutation_sym; exact P|left; reflexivity]. }
    destruct (drop_latest ts') as [|u l]; [destruct Iy|].
    destruct (forallb (is_past now) (u :: l)) eqn:Ef2; [|reflexivity].
    apply pasts_iff in Ef2. rewrite Forall_forall in Ef2. elim Ny. apply Ef2. exact Iy. }
  unfold baselevel. destruct ts' as [|u l]; [congruence|]. cbv zeta. rewrite X. destruct act; reflexivity.
Qed.

(** With optimized learning one is an error. *)
Theorem optimized_raise now ts d act : (exists t, In t ts /\ ~ past now t) -> baselevel now ts true d act true = BRaise EValue.
Proof.
  intros (t & Ht & Nt). destruct ts as [|u l]; [destruct Ht|]. unfold baselevel, level_optimized.
  destruct (latest_spec l u) as (_ & U). destruct (is_past now (latest u l)) eqn:E.
  - apply past_iff in E. elim Nt. unfold past in *. eapply Qle_lt_trans; [apply U; exact Ht|exact E].
  - destruct (Rlt_dec d 1); destruct act; reflexivity.
Qed.

(** ** Activation given by the modeller *)

Theorem given_more now ts d opt a : baselevel now ts false d (Some a) opt = BVal (ln (1 + exp a)) /\ a < ln (1 + exp a) /\ 0 < ln (1 + exp a).
Proof.
  unfold baselevel. rewrite exp_0. split; [reflexivity|]. pose proof (exp_pos a). split.
  - rewrite <- (ln_exp a) at 1. apply ln_increasing; lra.
  - rewrite <- ln_1. apply ln_increasing; lra.
Qed.

(** ** Source activation *)

Fixpoint Rsum (l : list R) : R := match l with [] => 0 | x :: l' => x + Rsum l' end.

(** Slots of a chunk that spread activation: those holding a chunk or, unless association comes only from
    chunks, a string (None apart). *)
Definition spreads (only : bool) (v : value) : bool :=
  match v with
  | VChunk _ => true
  | VStr s => negb only && negb (String.eqb s "None")
  | _ => false
  end.
Definition sources (only : bool) (c : chunk) : list (string * value) :=
  flat_map (fun p => match snd p with
                     | Some w => if spreads only (vvals w) then [(fst p, vvals w)] else []
                     | None => []
                     end) (cslots c).

(** The slot to which a source is restricted. *)
Definition place (restricted : bool) (n : string) : option string :=
  if restricted && negb (String.eqb n "") then Some n else None.
(** Source [j] is the chunk [i] or a value in it; in the given place if there is one. *)
Definition linked (only : bool) (at_ : option string) (j : value) (i : chunk) : bool :=
  match at_ with
  | Some n => existsb (fun p => String.eqb (fst p) n && val_eqb j (snd p)) (sources only i)
  | None => val_eqb j (VChunk i) || existsb (fun p => val_eqb j (snd p)) (sources only i)
  end.
(** How many of the sources in [i] are [j]. *)
Definition occurrences (only : bool) (j : value) (i : chunk) : nat :=
  List.length (filter (fun p => val_eqb j (snd p)) (sources only i)).
(** S_ji = S - ln ((1 + slots_j) / slots_ij) if they are linked, 0 otherwise. *)
Definition link_strength (s : R) (only : bool) (m : decmem) (at_ : option string) (j : value) (i : chunk) : R :=
  if linked only at_ j i
  then s - ln ((1 + INR (match at_ with Some n => fan_in m n j | None => fan m j end)) / INR (Nat.max 1 (occurrences only j i)))
  else 0.
(** What chunk [i] receives: the sum of W_kj S_ji over the filled buffers k and the sources j in them, the weight
    of each buffer being divided equally. *)
Definition from_buffer (s : R) (restricted only : bool) (m : decmem) (i : chunk) (w : R) (c : chunk) : R :=
  Rsum (map (fun p => w / INR (List.length (sources only c)) * link_strength s only m (place restricted (fst p)) (snd p) i) (sources only c)).
Definition received (s : R) (restricted only : bool) (m : decmem) (i : chunk) (srcs : list (R * option chunk)) : R :=
  Rsum (map (fun p => match snd p with Some c => from_buffer s restricted only m i (fst p) c | None => 0 end) srcs).

Lemma find_sources c only : find_chunks c only = sources only c.
Proof.
  unfold find_chunks, sources. induction (cslots c) as [|[n sv] l IH]; [reflexivity|]. cbn [flat_map fst snd]. rewrite IH. f_equal.
  destruct sv as [w|]; [|reflexivity]. simpl. destruct (vvals w) as [| |t|d]; try reflexivity.
  simpl. destruct (String.eqb t "None"), only; reflexivity.
Qed.
Lemma sources_source only c n v : In (n, v) (sources only c) -> source v.
Proof.
  unfold sources. intros H. apply in_flat_map in H. destruct H as ([n' sv] & _ & H). simpl in H. destruct sv as [w|]; [|destruct H].
  destruct (spreads only (vvals w)) eqn:E; [|destruct H]. destruct H as [H|[]]. injection H as <- <-.
  destruct (vvals w); try discriminate; constructor.
Qed.
Lemma source_not_empty v : source v -> v <> VEmpty.
Proof. intros []; discriminate. Qed.
Lemma source_eqb_sym u v : source u -> source v -> val_eqb u v = val_eqb v u.
Proof.
  intros Hu Hv. rewrite !val_key by (assumption || apply source_not_empty; assumption). apply eq_true_iff_eq. rewrite !key_eqb_iff. split; congruence.
Qed.

Lemma existsb_ext {A} (f g : A -> bool) l : (forall x, In x l -> f x = g x) -> existsb f l = existsb g l.
Proof. induction l as [|x l IH]; intros H; [reflexivity|]. simpl. rewrite H by (left; reflexivity). f_equal. apply IH. intros y Hy. apply H. right. exact Hy. Qed.

Lemma strength_links s m j i n only (restricted : bool) : source j -> coherent m ->
  let '(m', o) := strength m j i (if restricted then Some n else None) only in
  coherent m' /\ dmdata m' = dmdata m /\ association s o = link_strength s only m (place restricted n) j i.
Proof.
  intros Hj C. pose proof (strength_spec m j i (if restricted then Some n else None) only Hj C) as S.
  destruct (strength m j i (if restricted then Some n else None) only) as [m' o] eqn:E. destruct S as (S1 & S2 & S3).
  split; [exact S1|]. split; [exact S2|].
  assert (V : var_truthy (if restricted then Some n else None) = place restricted n).
  { unfold place. destruct restricted; [|reflexivity]. destruct n; reflexivity. }
  rewrite V in S3. unfold strength in E. rewrite V, !find_sources in E.
  assert (E1 : existsb (fun p => val_eqb (snd p) j) (sources only i) = existsb (fun p => val_eqb j (snd p)) (sources only i)).
  { apply existsb_ext. intros [a v] H. simpl. apply source_eqb_sym; [eapply sources_source; exact H|exact Hj]. }
  assert (E2 : forall t, existsb (fun p => String.eqb (fst p) t && val_eqb (snd p) j) (sources only i) = existsb (fun p => String.eqb (fst p) t && val_eqb j (snd p)) (sources only i)).
  { intros t. apply existsb_ext. intros [a v] H. simpl. f_equal. apply source_eqb_sym; [eapply sources_source; exact H|exact Hj]. }
  assert (E3 : List.length (filter (fun p => val_eqb (snd p) j) (sources only i)) = occurrences only j i).
  { unfold occurrences. f_equal. clear - Hj. assert (G : forall p, In p (sources only i) -> val_eqb (snd p) j = val_eqb j (snd p)).
    { intros [a v] H. simpl. apply source_eqb_sym; [eapply sources_source; exact H|exact Hj]. }
    induction (sources only i) as [|p l IH]; [reflexivity|]. simpl. rewrite G by (left; reflexivity). rewrite IH; [reflexivity|].
    intros q Hq. apply G. right. exact Hq. }
  rewrite E1, E3 in E. unfold link_strength, linked. cbv zeta in E.
  assert (Sn : forall k, INR (S k) = 1 + INR k) by (intros k; rewrite S_INR; lra).
  destruct (place restricted n) as [t|] eqn:Ep.
  - rewrite E2 in E. destruct (existsb (fun p => String.eqb (fst p) t && val_eqb j (snd p)) (sources only i)) eqn:Ex.
    + assert (Y : existsb (fun p => val_eqb j (snd p)) (sources only i) = true).
      { apply existsb_exists in Ex. destruct Ex as (p & I & H). apply andb_true_iff in H. apply existsb_exists. exists p. tauto. }
      rewrite Y, andb_false_r in E. destruct (rcount (restr m) t j) as [k|]; injection E as <- <-; unfold association; rewrite (S3 _ _ eq_refl), Sn; reflexivity.
    + destruct (_ && _); injection E as <- <-; reflexivity.
  - rewrite <- negb_orb in E. destruct (val_eqb j (VChunk i) || existsb (fun p => val_eqb j (snd p)) (sources only i)); simpl in E.
    + destruct (ucount (unrestr m) j) as [k|]; injection E as <- <-; unfold association; rewrite (S3 _ _ eq_refl), Sn; reflexivity.
    + injection E as <- <-. reflexivity.
Qed.

Lemma fan_same m m' v : dmdata m' = dmdata m -> fan m' v = fan m v.
Proof. intros E. apply fan_keys. rewrite E. reflexivity. Qed.
Lemma fan_in_same m m' s v : dmdata m' = dmdata m -> fan_in m' s v = fan_in m s v.
Proof. intros E. apply fan_in_keys. rewrite E. reflexivity. Qed.
Lemma link_same s only m m' p j i : dmdata m' = dmdata m -> link_strength s only m' p j i = link_strength s only m p j i.
Proof. intros E. unfold link_strength. destruct p; [rewrite (fan_in_same m m') by exact E|rewrite (fan_same m m') by exact E]; reflexivity. Qed.
Lemma received_same s restricted only m m' i srcs : dmdata m' = dmdata m -> received s restricted only m' i srcs = received s restricted only m i srcs.
Proof.
  intros E. unfold received, from_buffer. f_equal. apply map_ext. intros [w [c|]]; simpl; [|reflexivity]. f_equal. apply map_ext. intros p.
  f_equal. apply link_same. exact E.
Qed.

Lemma associations_sum s restricted only i l : forall m, (forall n v, In (n, v) l -> source v) -> coherent m ->
  let '(m', x) := associations s restricted only i m l in
  coherent m' /\ dmdata m' = dmdata m /\ x = Rsum (map (fun p => link_strength s only m (place restricted (fst p)) (snd p) i) l).
Proof.
  induction l as [|[n j] l IH]; intros m Hl C; [simpl; auto|]. cbn [associations].
  pose proof (strength_links s m j i n only restricted (Hl n j (or_introl eq_refl)) C) as X.
  destruct (strength m j i (if restricted then Some n else None) only) as [m1 o]. destruct X as (X1 & X2 & X3).
  specialize (IH m1 (fun a b H => Hl a b (or_intror H)) X1). destruct (associations s restricted only i m1 l) as [m2 r]. destruct IH as (Y1 & Y2 & Y3).
  split; [exact Y1|]. split; [congruence|]. cbn [map Rsum fst snd]. rewrite X3, Y3. f_equal. f_equal. apply map_ext. intros p. apply link_same. exact X2.
Qed.

Lemma Rsum_scale k (l : list R) : Rsum (map (Rmult k) l) = k * Rsum l.
Proof. induction l as [|x l IH]; simpl; [ring|]. rewrite IH. ring. Qed.
Lemma Rsum_const {A} k (l : list A) : Rsum (map (fun _ => k) l) = INR (List.length l) * k.
Proof. induction l as [|x l IH]; [simpl; ring|]. cbn [map Rsum List.length]. rewrite IH, S_INR. ring. Qed.

Theorem spreading_received s restricted only i srcs : forall m, coherent m ->
  let '(m', x) := spreading s restricted only i m srcs in
  coherent m' /\ dmdata m' = dmdata m /\ x = received s restricted only m i srcs.
Proof.
  induction srcs as [|[w [c|]] l IH]; intros m C; [simpl; auto| |].
  - cbn [spreading]. rewrite find_sources. pose proof (associations_sum s restricted only i (sources only c) m (fun n v H => sources_source only c n v H) C) as X.
    destruct (associations s restricted only i m (sources only c)) as [m1 x]. destruct X as (X1 & X2 & X3).
    specialize (IH m1 X1). destruct (spreading s restricted only i m1 l) as [m2 r]. destruct IH as (Y1 & Y2 & Y3).
    split; [exact Y1|]. split; [congruence|]. unfold received. cbn [map Rsum fst snd]. fold (received s restricted only m i l).
    rewrite Y3, (received_same _ _ _ m m1) by exact X2. f_equal. rewrite X3. unfold weigh, from_buffer. rewrite find_sources.
    destruct (sources only c) as [|q sl]; [simpl; ring|]. cbn [List.length Nat.eqb]. remember (S (List.length sl)) as n.
    rewrite <- Rsum_scale, map_map. reflexivity.
  - cbn [spreading]. specialize (IH m C). destruct (spreading s restricted only i m l) as [m2 r]. destruct IH as (Y1 & Y2 & Y3).
    split; [exact Y1|]. split; [exact Y2|]. unfold received. cbn [map Rsum snd]. fold (received s restricted only m i l). rewrite Y3. ring.
Qed.

(** C25: the shares are equal and sum to the weight of the buffer. *)
Theorem weights_sum c w only :
  weigh c w only = (if sources only c then 0 else w / INR (List.length (sources only c))) /\
  Rsum (map (fun _ => weigh c w only) (sources only c)) = if sources only c then 0 else w.
Proof.
  rewrite Rsum_const. unfold weigh. rewrite find_sources. destruct (sources only c) as [|p l]; [simpl; split; [reflexivity|ring]|].
  cbn [List.length Nat.eqb]. split; [reflexivity|]. field. apply not_0_INR. discriminate.
Qed.

Lemma Rsum_zero (l : list R) : (forall x, In x l -> x = 0) -> Rsum l = 0.
Proof. induction l as [|x l IH]; intros H; [reflexivity|]. simpl. rewrite (H x) by (left; reflexivity). rewrite IH; [ring|]. intros y Hy. apply H. right. exact Hy. Qed.
Theorem nothing_shared s restricted only i m srcs : coherent m ->
  (forall w c n j, In (w, Some c) srcs -> In (n, j) (sources only c) -> linked only (place restricted n) j i = false) ->
  snd (spreading s restricted only i m srcs) = 0.
Proof.
  intros C H. pose proof (spreading_received s restricted only i srcs m C) as X. destruct (spreading s restricted only i m srcs) as [m' x].
  destruct X as (_ & _ & ->). unfold snd, received. apply Rsum_zero. intros y Hy. apply in_map_iff in Hy. destruct Hy as ([w [c|]] & <- & I); [|reflexivity].
  simpl. unfold from_buffer. apply Rsum_zero. intros y Hy. apply in_map_iff in Hy. destruct Hy as ([n j] & <- & J). simpl.
  unfold link_strength. rewrite (H w c n j I J). ring.
Qed.

(** ** The fan of the documentation *)

(** The number of chunks in memory with [j] in some slot. *)
Definition in_slot (j : value) (p : string * slotval) : bool := match snd p with Some w => val_eqb j (vvals w) | None => false end.
Definition holders (m : decmem) (j : value) : nat := List.length (filter (fun p => existsb (in_slot j) (cslots (fst p))) (dmdata m)).
(** No chunk in memory has it in two slots. *)
Definition held_once (m : decmem) (j : value) : Prop :=
  forall c ts, In (c, ts) (dmdata m) -> (List.length (filter (in_slot j) (cslots c)) <= 1)%nat.
(** Neither the empty string nor a chunk without content. *)
Definition solid (j : value) : Prop := val_eqb j (VStr "") = false /\ val_eqb j (VChunk (MkChunk "" [])) = false.

Lemma exists_count {A} (f : A -> bool) l : existsb f l = negb (Nat.eqb (List.length (filter f l)) 0).
Proof. induction l as [|x l IH]; [reflexivity|]. simpl. destruct (f x); [reflexivity|exact IH]. Qed.

Lemma solid_content j v : source j -> solid j -> val_eqb j v = true -> content v = true.
Proof.
  intros Hj (C1 & C2) E. destruct (content v) eqn:Ev; [reflexivity|]. exfalso. destruct Hj as [s|c].
  - destruct v as [| |[|a t]|[ty [|p l]]]; try discriminate. congruence.
  - destruct v as [| |[|a t]|[ty [|p l]]]; try discriminate. rewrite val_key in * by (constructor || discriminate).
    apply key_eqb_iff in E. assert (X : key_eqb (VChunk c) (VChunk (MkChunk "" [])) = true) by (apply key_eqb_iff; rewrite E; reflexivity). congruence.
Qed.
Lemma written_count j c : source j -> solid j ->
  List.length (filter (fun p => val_eqb j (snd p)) (written c)) = List.length (filter (in_slot j) (cslots c)).
Proof.
  intros Hj Sj. unfold written. induction (cslots c) as [|[n [w|]] l IH]; [reflexivity| |exact IH].
  cbn [flat_map fst snd]. rewrite filter_app, app_length, IH. cbn [filter]. unfold in_slot at 2. cbn [snd].
  destruct (val_eqb j (vvals w)) eqn:E.
  - rewrite (solid_content j (vvals w) Hj Sj E). simpl. rewrite E. reflexivity.
  - destruct (content (vvals w)); simpl; [rewrite E|]; reflexivity.
Qed.
Lemma fan_holders m j : source j -> solid j -> held_once m j -> fan m j = holders m j.
Proof.
  unfold held_once, fan, holders, all_slots. intros Hj Sj H. induction (dmdata m) as [|[c ts] l IH]; [reflexivity|].
  cbn [flat_map filter fst]. rewrite filter_app, app_length, IH by (intros c' ts' H'; apply (H c' ts'); right; exact H').
  specialize (H c ts (or_introl eq_refl)). rewrite exists_count, written_count by assumption.
  destruct (List.length (filter (in_slot j) (cslots c))) as [|[|k]]; [reflexivity|reflexivity|lia].
Qed.
Lemma occurrences_le only j c : (occurrences only j c <= List.length (filter (in_slot j) (cslots c)))%nat.
Proof.
  unfold occurrences, sources. induction (cslots c) as [|[n [w|]] l IH]; [apply le_n| |exact IH].
  cbn [flat_map fst snd]. rewrite filter_app, app_length. cbn [filter]. unfold in_slot at 1. cbn [snd].
  destruct (spreads only (vvals w)); cbn [filter snd]; destruct (val_eqb j (vvals w)); cbn [List.length]; lia.
Qed.

(** C75 *)
Theorem documented_fan ops j i ts s only : Forall op_ok ops -> source j -> solid j ->
  held_once (mem_run ops) j -> In (i, ts) (dmdata (mem_run ops)) ->
  association s (snd (strength (mem_run ops) j i None only)) =
  if linked only None j i then s - ln (1 + INR (holders (mem_run ops) j)) else 0.
Proof.
  intros Ho Hj Sj H1 Hi. destruct (run_inv ops Ho) as (_ & C). pose proof (strength_links s (mem_run ops) j i "" only false Hj C) as X.
  cbv iota in X. destruct (strength (mem_run ops) j i None only) as [m' o]. destruct X as (_ & _ & X). cbn [snd]. rewrite X. clear X.
  unfold link_strength. change (place false "") with (@None string). destruct (linked only None j i); [|reflexivity]. rewrite (fan_holders _ _ Hj Sj H1).
  pose proof (occurrences_le only j i) as L. specialize (H1 i ts Hi). replace (Nat.max 1 (occurrences only j i)) with 1%nat by lia.
  change (INR 1) with 1. f_equal. f_equal. field.
Qed.

(** ** Latency *)

Theorem latency_decreases factor exponent a a' : 0 < factor -> 0 < exponent ->
  0 < latency factor exponent a /\ (a < a' -> latency factor exponent a' < latency factor exponent a).
Proof.
  intros Hf He. unfold latency. split; [apply Rmult_lt_0_compat; [exact Hf|apply exp_pos]|]. intros H.
  apply Rmult_lt_compat_l; [exact Hf|]. apply exp_increasing. apply Rmult_lt_compat_r; [exact He|]. lra.
Qed.
Lemma latency_le factor exponent a a' : 0 < factor -> 0 < exponent -> a <= a' -> latency factor exponent a' <= latency factor exponent a.
Proof. intros Hf He H. destruct H as [H|H]; [|rewrite H; right; reflexivity]. left. apply latency_decreases; assumption. Qed.

(** ** Retrieval with activation *)

Section Rounds.
  Variable z : sparams.
  Variable given : chunk -> option R.
  Variable noise : nat -> R.
  Variable now : Q.
  Variable pat : chunk.
  Variable x : recency.
  Variable finst : nat.
  Variable recent : list (option chunk).
  Variable m : decmem.
  Hypothesis Wp : wf_chunk pat.
  Hypothesis Cp : const_pattern pat.
  Hypothesis Np : no_variables pat.

  Definition mismatch (c : chunk) : R := if zpm z then Q2R (snd (pm_match (zsims z) (zmp z) nobind pat c)) else 0.
  (** A chunk that takes part, its base level and its total activation. *)
  Definition takes_part (c : chunk) : Prop := passes x finst recent c /\ (zpm z = true \/ asked pat c).
  Definition base (c : chunk) (ts : list Q) : level := baselevel now ts (zbll z) (zdecay z) (given c) (zopt z).
  Definition totals (k : nat) (c : chunk) (ts : list Q) (a : R) : Prop :=
    takes_part c /\ exists b, base c ts = BVal b /\
      a = b + received (zstrength z) (zrestricted z) (zonly z) m c (zsources z) + mismatch c + noise k.
  Definition fails (c : chunk) (ts : list Q) (e : exn) : Prop := takes_part c /\ base c ts = BRaise e.
  Definition good (st : sstate) : Prop := coherent (ssmem st) /\ dmdata (ssmem st) = dmdata m.

  Lemma sub_round_spec k c ts st : wf_chunk c -> fact c -> passes x finst recent c -> good st ->
    match sub_round z given noise now pat k c ts st with
    | Err e => fails c ts e
    | Ok st1 => good st1 /\ (forall e, ~ fails c ts e) /\
        ((exists a, totals k c ts a /\ zthr z <= a /\ (forall mx, ssmax st = Some mx -> mx < a) /\
            ssmax st1 = Some a /\ ssgot st1 = Some (c, latency (zfactor z) (zexp z) a)) \/
         (ssmax st1 = ssmax st /\ ssgot st1 = ssgot st /\
          forall a, totals k c ts a -> a < zthr z \/ exists mx, ssmax st = Some mx /\ a <= mx))
    end.
  Proof.
    intros Wc Fc Hpass (G1 & G2). unfold sub_round.
    assert (M : exists ok q, (if zpm z then let (b1, q) := pm_match (zsims z) (zmp z) (ssb st) pat c in (b1, q, true)
       else let (b1, ok) := chunk_le (ssb st) pat c in (b1, 0%Q, ok)) = (ssb st, q, ok) /\ Q2R q = mismatch c /\ (ok = true <-> takes_part c)).
    { unfold mismatch, takes_part. destruct (zpm z).
      - exists true. eexists. rewrite pm_novar by exact Np. split; [reflexivity|]. split; [reflexivity|]. tauto.
      - destruct (le_asked pat c Wp Cp Np Wc Fc (ssb st)) as [L1 L2]. destruct (chunk_le (ssb st) pat c) as [b1 ok]. simpl in *. subst b1.
        exists ok, 0%Q. split; [reflexivity|]. split; [unfold Q2R; simpl; lra|]. rewrite L2. split; [tauto|]. intros [_ [H|H]]; [discriminate|exact H]. }
    destruct M as (ok & q & -> & Hq & Hok). destruct ok.
    - assert (El : takes_part c) by (apply Hok; reflexivity). fold (base c ts). unfold fails, totals.
      destruct (base c ts) as [b| |e] eqn:Eb.
      + pose proof (spreading_received (zstrength z) (zrestricted z) (zonly z) c (zsources z) (ssmem st) G1) as X.
        destruct (spreading (zstrength z) (zrestricted z) (zonly z) c (ssmem st) (zsources z)) as [m' sa]. destruct X as (X1 & X2 & X3).
        rewrite (received_same _ _ _ m) in X3 by exact G2. rewrite Hq, X3. set (a := b + _ + mismatch c + noise k).
        assert (Ta : forall a', (takes_part c /\ exists b0, BVal b = BVal b0 /\ a' = b0 + received (zstrength z) (zrestricted z) (zonly z) m c (zsources z) + mismatch c + noise k) -> a' = a).
        { intros a' (_ & b0 & [= <-] & H). exact H. }
        destruct (Rle_dec (zthr z) a) as [L|L].
        * destruct (match ssmax st with None => true | Some mx => if Rlt_dec mx a then true else false end) eqn:Em.
          -- split; [split; [exact X1|simpl; congruence]|]. split; [intros e [_ H]; discriminate|]. left. exists a. split; [split; [exact El|exists b; auto]|].
             split; [exact L|]. split; [|split; reflexivity]. intros mx Emx. rewrite Emx in Em. destruct (Rlt_dec mx a); [assumption|discriminate].
          -- split; [split; [exact X1|simpl; congruence]|]. split; [intros e [_ H]; discriminate|]. right. split; [reflexivity|]. split; [reflexivity|].
             intros a' Ha. apply Ta in Ha. subst a'. right. destruct (ssmax st) as [mx|]; [|discriminate]. exists mx. split; [reflexivity|].
             destruct (Rlt_dec mx a); [discriminate|]. lra.
        * split; [split; [exact X1|simpl; congruence]|]. split; [intros e [_ H]; discriminate|]. right. split; [reflexivity|]. split; [reflexivity|].
          intros a' Ha. apply Ta in Ha. subst a'. left. lra.
      + split; [split; assumption|]. split; [intros e [_ H]; discriminate|]. right. split; [reflexivity|]. split; [reflexivity|].
        intros a (_ & b & H & _). discriminate.
      + auto.
    - assert (Nel : ~ takes_part c) by (intros H; apply Hok in H; discriminate).
      split; [split; assumption|]. split; [intros e [H _]; contradiction|]. right. split; [reflexivity|]. split; [reflexivity|]. intros a [H _]. contradiction.
  Qed.

  Lemma totals_eq k c ts a a' : totals k c ts a -> totals k c ts a' -> a = a'.
  Proof. intros (_ & b & E & ->) (_ & b' & E' & ->). congruence. Qed.

  Lemma sub_rounds_spec l : (forall c ts, In (c, ts) l -> wf_chunk c /\ fact c) ->
    forall i st, good st ->
    match sub_rounds z given noise now pat x finst recent i l st with
    | Err e => exists k c ts, nth_error l k = Some (c, ts) /\ fails c ts e
    | Ok st' =>
        (forall k c ts e, nth_error l k = Some (c, ts) -> ~ fails c ts e) /\
        ((ssmax st' = ssmax st /\ ssgot st' = ssgot st /\
          forall k c ts a, nth_error l k = Some (c, ts) -> totals (i + k) c ts a ->
            a < zthr z \/ exists mx, ssmax st = Some mx /\ a <= mx) \/
         (exists k c ts a, nth_error l k = Some (c, ts) /\ totals (i + k) c ts a /\ zthr z <= a /\
            (forall mx, ssmax st = Some mx -> mx < a) /\
            ssmax st' = Some a /\ ssgot st' = Some (c, latency (zfactor z) (zexp z) a) /\
            forall k' c' ts' a', nth_error l k' = Some (c', ts') -> totals (i + k') c' ts' a' ->
              a' <= a /\ ((k' < k)%nat -> a' < a)))
    end.
  Proof.
    induction l as [|[c ts] l IH]; intros Hl i st G.
    - simpl. split; [intros [|k] c ts e H; discriminate|]. left. split; [reflexivity|]. split; [reflexivity|]. intros [|k] c ts a H; discriminate.
    - destruct (Hl c ts (or_introl eq_refl)) as (Wc & Fc).
      assert (Hl' : forall c ts, In (c, ts) l -> wf_chunk c /\ fact c) by (intros c' ts' H; apply (Hl c' ts'); simpl; auto).
      assert (Sh : forall k, (i + S k = S i + k)%nat) by (intros; lia).
      assert (Sx : match (if skipped x finst recent c then Ok st else sub_round z given noise now pat i c ts st) with
        | Err e => fails c ts e
        | Ok st1 => good st1 /\ (forall e, ~ fails c ts e) /\
          ((exists a, totals i c ts a /\ zthr z <= a /\ (forall mx, ssmax st = Some mx -> mx < a) /\
            ssmax st1 = Some a /\ ssgot st1 = Some (c, latency (zfactor z) (zexp z) a)) \/
           (ssmax st1 = ssmax st /\ ssgot st1 = ssgot st /\
            forall a, totals i c ts a -> a < zthr z \/ exists mx, ssmax st = Some mx /\ a <= mx))
        end).
      { destruct (skipped x finst recent c) eqn:Es.
        - assert (Ns : ~ passes x finst recent c) by (intros H; apply skipped_passes in H; congruence).
          split; [exact G|]. split; [intros e [[H _] _]; contradiction|]. right. split; [reflexivity|]. split; [reflexivity|]. intros a [[H _] _]. contradiction.
        - apply skipped_passes in Es. exact (sub_round_spec i c ts st Wc Fc Es G). }
      simpl. destruct (if skipped x finst recent c then Ok st else sub_round z given noise now pat i c ts st) as [st1|e]; cbn [rbind].
      + destruct Sx as (G1 & S0 & Sx). specialize (IH Hl' (S i) st1 G1). destruct (sub_rounds z given noise now pat x finst recent (S i) l st1) as [st'|e].
        * destruct IH as [N0 IH]. split.
          { intros [|k] c' ts' e H; simpl in H; [injection H as <- <-; apply S0|]. apply (N0 k c' ts' e H). }
          destruct Sx as [(a & A1 & A2 & A3 & A4 & A5)|(B1 & B2 & B3)], IH as [(C1 & C2 & C3)|(k & c1 & ts1 & a1 & D1 & D2 & D3 & D4 & D5 & D6 & D7)].
          -- right. exists 0%nat, c, ts, a. rewrite Nat.add_0_r. split; [reflexivity|]. split; [exact A1|]. split; [exact A2|]. split; [exact A3|].
             split; [congruence|]. split; [congruence|]. intros [|k'] c' ts' a' H Hc.
             ++ simpl in H. injection H as <- <-. rewrite Nat.add_0_r in Hc. rewrite (totals_eq _ _ _ _ _ Hc A1). split; [lra|lia].
             ++ simpl in H. rewrite Sh in Hc. split; [|lia]. destruct (C3 k' c' ts' a' H Hc) as [H1|(mx & H1 & H2)].
                ** lra.
                ** assert (mx = a) by congruence. subst mx. exact H2.
          -- right. exists (S k), c1, ts1, a1. rewrite Sh. split; [exact D1|]. split; [exact D2|]. split; [exact D3|].
             split; [intros mx Emx; specialize (A3 mx Emx); specialize (D4 a A4); lra|]. split; [exact D5|]. split; [exact D6|].
             intros [|k'] c' ts' a' H Hc.
             ++ simpl in H. injection H as <- <-. rewrite Nat.add_0_r in Hc. rewrite (totals_eq _ _ _ _ _ Hc A1). specialize (D4 _ A4). split; [lra|]. intros _. exact D4.
             ++ simpl in H. rewrite Sh in Hc. destruct (D7 k' c' ts' a' H Hc) as [E1 E2]. split; [exact E1|]. intros Hk. apply E2. lia.
          -- left. split; [congruence|]. split; [congruence|]. intros [|k'] c' ts' a' H Hc.
             ++ simpl in H. injection H as <- <-. rewrite Nat.add_0_r in Hc. apply B3. exact Hc.
             ++ simpl in H. rewrite Sh in Hc. rewrite <- B1. apply (C3 k' c' ts' a' H Hc).
          -- right. exists (S k), c1, ts1, a1. rewrite Sh. split; [exact D1|]. split; [exact D2|]. split; [exact D3|].
             split; [rewrite <- B1; exact D4|]. split; [exact D5|]. split; [exact D6|]. intros [|k'] c' ts' a' H Hc.
             ++ simpl in H. injection H as <- <-. rewrite Nat.add_0_r in Hc. destruct (B3 a' Hc) as [H1|(mx & H1 & H2)].
                ** split; [lra|intros _; lra].
                ** rewrite <- B1 in H1. specialize (D4 mx H1). split; [lra|intros _; lra].
             ++ simpl in H. rewrite Sh in Hc. destruct (D7 k' c' ts' a' H Hc) as [E1 E2]. split; [exact E1|]. intros Hk. apply E2. lia.
        * destruct IH as (k & c' & ts' & H1 & H2). exists (S k), c', ts'. auto.
      + exists 0%nat, c, ts. auto.
  Qed.
End Rounds.

(** The situation of a request: [o] is resolved to [pat]; memory holds facts and its counters are right. *)
Definition request_setup (reg : registry) (o : chunk) (bs : bindings) (m : decmem) (pat : chunk) : Prop :=
  factual m /\ coherent m /\ registry_ok reg /\ names_distinct o /\ NoDup (dkeys (bpos bs)) /\
  marks_free bs o /\ good_values bs o /\ exists reg', request reg o bs = Ok (reg', pat).

Theorem activation_retrieval z given noise now reg o bs x finst recent m pat :
  request_setup reg o bs m pat ->
  let part := totals z given noise now pat x finst recent m in
  let entry k c ts := nth_error (dmdata m) k = Some (c, ts) in
  let time := latency (zfactor z) (zexp z) in
  match sub_retrieve z given noise now reg o bs x finst recent m with
  | Err e => exists k c ts, entry k c ts /\ takes_part z pat x finst recent c /\
               baselevel now ts (zbll z) (zdecay z) (given c) (zopt z) = BRaise e
  | Ok (Some c, q) =>
      exists k ts a, entry k c ts /\ part k c ts a /\ zthr z <= a /\ q = time (if cslots c then zthr z else a) /\
        forall k' c' ts' a', entry k' c' ts' -> part k' c' ts' a' -> a' <= a /\ ((k' < k)%nat -> a' < a)
  | Ok (None, q) => q = time (zthr z) /\ forall k c ts a, entry k c ts -> part k c ts a -> a < zthr z
  end.
Proof.
  intros (Fm & Cm & Hr & Hn & Hd & Hm & Hg & reg' & Er). cbv zeta.
  destruct (request_pattern reg o bs reg' pat) as (Wp & Cp & Np); try assumption.
  unfold sub_retrieve. rewrite Er. cbn [rbind].
  pose proof (sub_rounds_spec z given noise now pat x finst recent m Wp Cp Np (dmdata m) Fm 0%nat (MkSS m nobind None None) (conj Cm eq_refl)) as X.
  destruct (sub_rounds z given noise now pat x finst recent 0 (dmdata m) (MkSS m nobind None None)) as [st|e]; cbn [rbind].
  - destruct X as [_ [(X1 & X2 & X3)|(k & c & ts & a & X1 & X2 & X3 & X4 & X5 & X6 & X7)]]; simpl in *.
    + rewrite X2. split; [reflexivity|]. intros k c ts a E T. destruct (X3 k c ts a E T) as [H|(mx & H & _)]; [exact H|discriminate].
    + rewrite X6. exists k, ts, a. split; [exact X1|]. split; [exact X2|]. split; [exact X3|]. split; [destruct (cslots c); reflexivity|]. exact X7.
  - destruct X as (k & c & ts & X1 & X2 & X3). exists k, c, ts. auto.
Qed.

(** Whoever takes part without a valid base level makes the retrieval fail. *)
Theorem activation_error z given noise now reg o bs x finst recent m pat k c ts e :
  request_setup reg o bs m pat -> nth_error (dmdata m) k = Some (c, ts) -> takes_part z pat x finst recent c ->
  baselevel now ts (zbll z) (zdecay z) (given c) (zopt z) = BRaise e ->
  exists e', sub_retrieve z given noise now reg o bs x finst recent m = Err e'.
Proof.
  intros (Fm & Cm & Hr & Hn & Hd & Hm & Hg & reg' & Er) Ek Tp Eb.
  destruct (request_pattern reg o bs reg' pat) as (Wp & Cp & Np); try assumption.
  unfold sub_retrieve. rewrite Er. cbn [rbind].
  pose proof (sub_rounds_spec z given noise now pat x finst recent m Wp Cp Np (dmdata m) Fm 0%nat (MkSS m nobind None None) (conj Cm eq_refl)) as X.
  destruct (sub_rounds z given noise now pat x finst recent 0 (dmdata m) (MkSS m nobind None None)) as [st|e0]; cbn [rbind]; [|eauto].
  destruct X as [X _]. destruct (X k c ts e Ek). split; assumption.
Qed.

(** C23: the times of retrievals, whatever the request and the memory. *)
Lemma sub_round_got z given noise now pat k c ts st st1 : sub_round z given noise now pat k c ts st = Ok st1 ->
  (forall d q, ssgot st = Some (d, q) -> exists a, zthr z <= a /\ q = latency (zfactor z) (zexp z) a) ->
  forall d q, ssgot st1 = Some (d, q) -> exists a, zthr z <= a /\ q = latency (zfactor z) (zexp z) a.
Proof.
  intros E H d q G. unfold sub_round in E.
  destruct (if zpm z then let (b1, q) := pm_match (zsims z) (zmp z) (ssb st) pat c in (b1, q, true) else let (b1, ok) := chunk_le (ssb st) pat c in (b1, 0%Q, ok)) as [[b1 apm] ok].
  destruct ok; [|injection E as <-; exact (H d q G)].
  destruct (baselevel now ts (zbll z) (zdecay z) (given c) (zopt z)) as [b| |e]; [|injection E as <-; exact (H d q G)|discriminate].
  destruct (spreading (zstrength z) (zrestricted z) (zonly z) c (ssmem st) (zsources z)) as [m' sa].
  destruct (Rle_dec (zthr z) (b + sa + Q2R apm + noise k)) as [L|L]; [|injection E as <-; exact (H d q G)].
  destruct (match ssmax st with None => true | Some mx => if Rlt_dec mx (b + sa + Q2R apm + noise k) then true else false end); injection E as <-; [|exact (H d q G)].
  simpl in G. injection G as _ <-. eauto.
Qed.
Lemma sub_rounds_got z given noise now pat x finst recent l : forall k st st1, sub_rounds z given noise now pat x finst recent k l st = Ok st1 ->
  (forall d q, ssgot st = Some (d, q) -> exists a, zthr z <= a /\ q = latency (zfactor z) (zexp z) a) ->
  forall d q, ssgot st1 = Some (d, q) -> exists a, zthr z <= a /\ q = latency (zfactor z) (zexp z) a.
Proof.
  induction l as [|[c ts] l IH]; intros k st st1 E H; [injection E as <-; exact H|]. cbn [sub_rounds] in E.
  destruct (skipped x finst recent c); cbn [rbind] in E; [eapply IH; eassumption|].
  destruct (sub_round z given noise now pat k c ts st) as [st2|] eqn:E2; [|discriminate]. cbn [rbind] in E. eapply IH; [exact E|].
  eapply sub_round_got; eassumption.
Qed.
Theorem times_bounded z given noise now reg o bs x finst recent m c q :
  0 < zfactor z -> 0 < zexp z -> sub_retrieve z given noise now reg o bs x finst recent m = Ok (c, q) ->
  0 < q /\ q <= latency (zfactor z) (zexp z) (zthr z) /\ (c = None -> q = latency (zfactor z) (zexp z) (zthr z)).
Proof.
  intros Hf He E. unfold sub_retrieve in E. destruct (request reg o bs) as [[reg' pat]|]; [|discriminate]. cbn [rbind] in E.
  destruct (sub_rounds z given noise now pat x finst recent 0 (dmdata m) (MkSS m nobind None None)) as [st|] eqn:E1; [|discriminate]. cbn [rbind] in E.
  pose proof (sub_rounds_got _ _ _ _ _ _ _ _ _ _ _ _ E1) as X. specialize (X ltac:(discriminate)). injection E as E.
  assert (Z : forall a, zthr z <= a -> 0 < latency (zfactor z) (zexp z) a /\ latency (zfactor z) (zexp z) a <= latency (zfactor z) (zexp z) (zthr z)).
  { intros a L. split; [apply (latency_decreases _ _ _ 0); assumption|apply latency_le; assumption]. }
  pose proof (Z (zthr z) (Rle_refl _)) as Zt. destruct (ssgot st) as [[d r]|].
  - injection E as <- <-. destruct (X d r eq_refl) as (a & L & ->). specialize (Z a L). destruct (cslots d); (split; [tauto|]; split; [tauto|discriminate]).
  - injection E as <- <-. tauto.
Qed.

(** C73 *)
Theorem never_reported now ts bll d act opt : baselevel now ts bll d act opt <> BRaise EActr.
Proof.
  assert (G : forall l : level, l <> BRaise EActr -> match act with None => l | Some a => match l with BVal r => BVal (ln (exp r + exp a)) | BUnset => BVal a | BRaise e => BRaise e end end <> BRaise EActr).
  { intros l Hl. destruct act; [|exact Hl]. destruct l; congruence. }
  apply G. destruct bll; [|discriminate]. destruct ts as [|t l]; [discriminate|]. destruct opt; unfold level_optimized, level_plain.
  - destruct (Rlt_dec d 1); [|discriminate]. destruct (is_past now (latest t l)); discriminate.
  - destruct (forallb (is_past now) (t :: l)); [discriminate|]. destruct (drop_latest (t :: l)) as [|u l']; [discriminate|].
    destruct (forallb (is_past now) (u :: l')); discriminate.
Qed.
Theorem future_ignored now t ts d act : (now < t)%Q -> Forall (past now) ts ->
  baselevel now (t :: ts) true d act false = baselevel now ts true d act false.
Proof.
  intros Ht F. apply (one_ignored now ts t (t :: ts)); [|exact F|apply Permutation_refl].
  intros P. apply (Qlt_irrefl t). eapply Qlt_trans; [exact P|exact Ht].
Qed.
