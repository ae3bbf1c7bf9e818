(** What the life of a model (several simulations, prepared and run one after another) keeps of its buffers. *)
From Coq Require Import List Lia.
From Verif Require Import Base Chunks DecMem Buffers BufferFacts Productions Sim SimSpec ReachSpec Run RunSpec RulesSpec Model SessionLift.
Import ListNotations.
Local Open Scope nat_scope.

(** The buffers of a world are still there, with the same content; only the memory that they harvest into may be another one. *)
Definition same_but_dm (b b' : buffer) : Prop := exists m, b' = b \/ b' = set_dm b m.
Definition still_there (w w' : world) : Prop := forall i b, nth_error (bufs w) i = Some b -> exists b', nth_error (bufs w') i = Some b' /\ same_but_dm b b'.

Lemma sbd_refl b : same_but_dm b b.
Proof. exists None. auto. Qed.
Lemma sbd_trans a b c : same_but_dm a b -> same_but_dm b c -> same_but_dm a c.
Proof. intros [m [->| ->]] [n [->| ->]]; [exists m|exists n|exists m|exists n]; auto. Qed.
Lemma st_refl w : still_there w w.
Proof. intros i b E. exists b. split; [exact E|apply sbd_refl]. Qed.
Lemma st_trans a b c : still_there a b -> still_there b c -> still_there a c.
Proof. intros H K i x E. destruct (H i x E) as (y & F & G). destruct (K i y F) as (z & F' & G'). exists z. split; [exact F'|exact (sbd_trans _ _ _ G G')]. Qed.
Lemma st_more w w1 ms l r : still_there w w1 -> still_there w (MkW ms (bufs w1 ++ l) r).
Proof.
  intros H i b E. destruct (H i b E) as (b' & F & G). exists b'. split; [|exact G]. cbn [bufs]. rewrite nth_error_app1; [exact F|].
  apply nth_error_Some. congruence.
Qed.

Lemma give_dm_there w i m : still_there w (give_dm w i m).
Proof.
  intros j b E. unfold give_dm. destruct (nth_error (bufs w) i) as [x|] eqn:F; [|exact (st_refl w j b E)].
  unfold set_buf. cbn [bufs]. destruct (Nat.eq_dec j i) as [->|N].
  - assert (x = b) by congruence. subst x. exists (set_dm b (Some m)). split; [exact (upd_same _ _ _ _ E)|exists (Some m); auto].
  - exists b. split; [rewrite upd_other by exact N; exact E|apply sbd_refl].
Qed.
Lemma assign_there w a : still_there w (fst (assign_memories w a)).
Proof.
  unfold assign_memories. destruct (Nat.eqb _ 1).
  - destruct (the_decmem a) as [m|]; [|apply st_refl]. cbn [fst]. unfold give_all. generalize (abuffers a). intros l. revert w.
    induction l as [|p l IH]; intros w; [apply st_refl|]. cbn [fold_left]. exact (st_trans _ _ _ (give_dm_there _ _ _) (IH _)).
  - destruct (Nat.eqb _ 1); [|apply st_refl]. generalize (abuffers a) as l. intros l. revert w. induction l as [|[x i] l IH]; intros w; [apply st_refl|].
    cbn [give_needy]. destruct (match buf_dm w i with Some m => mem_truthy w m | None => false end); [apply IH|].
    destruct (the_decmem a) as [m|]; [|apply st_refl]. exact (st_trans _ _ _ (give_dm_there _ _ _) (IH _)).
Qed.
Lemma prepare_there w a env w' r : prepare_simulation w a env = (w', r) -> still_there w w'.
Proof.
  intros P. pose proof (assign_there w a) as H. unfold prepare_simulation in P. destruct (assign_memories w a) as [w1 [u|e]]; [|injection P as <- _; exact H]. cbn [fst] in H.
  destruct (negb env); [injection P as <- _; apply st_more, H|]. destruct (avis a) as [|p v]; [|injection P as <- _; apply st_more, H].
  destruct (used_memories w1 (abuffers a)) as [|[? m] ?]; injection P as <- _; [apply st_more, H|].
  cbn [bufs]. rewrite <- app_assoc. apply st_more, H.
Qed.

(** C113: what preparing a simulation does to the buffers and memories of the model. *)
Theorem prepare_keeps w a env w' r i b : prepare_simulation w a env = (w', r) -> nth_error (bufs w) i = Some b ->
  mems w' = mems w /\ exists b', nth_error (bufs w') i = Some b' /\ bkind b' = bkind b /\ bdata b' = bdata b /\ brecent b' = brecent b /\ bfinst b' = bfinst b /\
    bstims b' = bstims b /\ bact b' = bact b /\ bdelay b' = bdelay b.
Proof.
  intros P E. split; [exact (prepare_mems _ _ _ _ _ P)|]. destruct (prepare_there _ _ _ _ _ P i b E) as (b' & F & m & [->| ->]).
  - exists b. repeat split. exact F.
  - exists (set_dm b m). repeat split. exact F.
Qed.

(** C21 *)
Theorem life_recent_bounded w w' i b : life w w' -> nth_error (bufs w) i = Some b -> List.length (brecent b) <= bfinst b ->
  exists b', nth_error (bufs w') i = Some b' /\ bkind b' = bkind b /\ bfinst b' = bfinst b /\ List.length (brecent b') <= bfinst b.
Proof.
  intros L. revert i b. induction L as [w|w w1 a env w2 r L IH P|w w1 O t s env S L IH E RO A H]; intros i b F B.
  - eauto.
  - destruct (IH i b F B) as (b1 & F1 & K1 & N1 & B1). destruct (prepare_keeps _ _ _ _ _ i b1 P F1) as (_ & b2 & F2 & K2 & D2 & R2 & N2 & _).
    exists b2. repeat split; congruence.
  - destruct (IH i b F B) as (b1 & F1 & K1 & N1 & B1). subst w1. rewrite <- N1 in B1.
    destruct (left_recent_bounded O t s env S i b1 RO A F1 B1 H) as (b2 & F2 & K2 & N2 & B2). exists b2. repeat split; congruence.
Qed.
