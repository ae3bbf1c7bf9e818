(** Facts about what simulations do to buffers, memories and parameters. *)
From Verif Require Import BaseFacts Chunks DecMem DecMemFacts Buffers BufferFacts FinstFacts Productions ProdSpec Environment EnvSpec EnvFacts ProdWitness Sim SimSpec ReachSpec LiftFacts SimWitness EnvWitness.
Local Open Scope string_scope.
Local Open Scope list_scope.
Local Open Scope nat_scope.

Lemma reach_trans w w1 w2 : reach w w1 -> reach w1 w2 -> reach w w2.
Proof.
  intros A B. induction B as [|w' o B IH S|w' ty args r c B IH M|w' i b d rest B IH E D]; [exact A|apply reach_op; assumption|eapply reach_chunk; eassumption|eapply reach_pop; eassumption].
Qed.

Theorem sim_reach O t s env S : respects O -> (forall g, env = Some g -> aloof g) -> sim_runs O (sim_init t s env) S -> reach (sw s) (sw (ss S)).
Proof.
  intros RO A R. refine (sim_keeps (fun s' => reach (sw s) (sw s')) _ O RO t s env S (reach_refl _) A R). split.
  - intros s1 s2 _ E _ _ _ _ H. rewrite E. exact H.
  - intros s1 w H1 H2. cbn. eapply reach_trans; eassumption.
Qed.
Theorem sim_fixed O t s env S : respects O -> (forall g, env = Some g -> aloof g) -> sim_runs O (sim_init t s env) S ->
  sp (ss S) = sp s /\ snames (ss S) = snames s /\ sdm (ss S) = sdm s /\ (sprep (ss S) = true -> sprep s = true).
Proof.
  intros RO A R.
  refine (sim_keeps (fun s' => sp s' = sp s /\ snames s' = snames s /\ sdm s' = sdm s /\ (sprep s' = true -> sprep s = true)) _ O RO t s env S _ A R); [|auto]. split.
  - intros s1 s2 E1 E2 E3 E4 E5 _ (H1 & H2 & H3 & H4). repeat split; try congruence. auto.
  - intros s1 w _ H. exact H.
Qed.

(** ** Buffers *)

Lemma reach_small w w' : reach w w' -> all_small w -> all_small w'.
Proof.
  intros R H. induction R as [|w' o B IH S|w' ty args r c B IH M|w' i b d rest B IH E D]; [exact H|apply step_small; exact IH|exact IH|].
  apply upd_Forall; [exact IH|]. pose proof (nth_Forall small _ _ _ IH E) as N. unfold small in *. rewrite D in N. cbn in *. lia.
Qed.
Theorem sim_at_most_one O t s env S i l : respects O -> (forall g, env = Some g -> aloof g) ->
  (forall j k, holds_chunks (sw s) j k -> k = [] \/ exists c, k = [c]) ->
  sim_runs O (sim_init t s env) S -> holds_chunks (sw (ss S)) i l -> l = [] \/ exists c, l = [c].
Proof.
  intros RO A H0 R (b & E & <-).
  assert (H : all_small (sw s)).
  { apply Forall_forall. intros b' I'. apply In_nth_error in I'. destruct I' as [j J]. unfold small. destruct (H0 j (bdata b')) as [->|[c ->]]; [exists b'; auto|cbn; lia..]. }
  pose proof (nth_Forall small _ _ _ (reach_small _ _ (sim_reach O t s env S RO A R) H) E) as N. unfold small in N.
  destruct (bdata b) as [|c [|]]; cbn in N; [auto|eauto|lia].
Qed.

(** ** Memories *)

Lemma ae_trans a b c : all_extend a b -> all_extend b c -> all_extend a c.
Proof.
  intros A B m dm E. destruct (A m dm E) as (d1 & E1 & X1). destruct (B m d1 E1) as (d2 & E2 & X2). exists d2. split; [exact E2|eapply extends_trans; eassumption].
Qed.
Lemma reach_extends w w' : reach w w' -> all_extend w w'.
Proof.
  intros R. induction R as [|w' o B IH S|w' ty args r c B IH M|w' i b d rest B IH E D]; [apply ae_refl; reflexivity| | |]; (eapply ae_trans; [exact IH|]).
  - apply step_extends.
  - apply ae_refl. reflexivity.
  - apply ae_refl. reflexivity.
Qed.
Theorem sim_never_forgets O t s env S m dm : respects O -> (forall g, env = Some g -> aloof g) ->
  sim_runs O (sim_init t s env) S -> memory (sw s) m = Some dm -> exists dm', memory (sw (ss S)) m = Some dm' /\ extends dm dm'.
Proof. intros RO A R. exact (reach_extends _ _ (sim_reach O t s env S RO A R) m dm). Qed.

(** ** Finsts *)

Lemma sim_op_finst i o : sim_op o -> keeps_finst i o.
Proof. destruct o; cbn; tauto. Qed.
Lemma push_le (n : nat) (l : list (option chunk)) r : 0 < n -> List.length l <= n -> List.length (push n l r) <= n.
Proof. intros Hn L. replace l with (lastn n l); [rewrite push_lastn by exact Hn; apply lastn_length|]. unfold lastn. replace (List.length l - n) with 0 by lia. reflexivity. Qed.
Lemma fold_push_le n rs : forall (l : list (option chunk)), 0 < n -> List.length l <= n -> List.length (fold_left (fun l r => push n l r) rs l) <= n.
Proof. induction rs as [|r rs IH]; intros l Hn L; cbn [fold_left]; [exact L|]. apply IH; [exact Hn|]. apply push_le; assumption. Qed.
Lemma reach_finsts w w' i b : reach w w' -> nth_error (bufs w) i = Some b -> List.length (brecent b) <= bfinst b ->
  exists b', nth_error (bufs w') i = Some b' /\ bkind b' = bkind b /\ bfinst b' = bfinst b /\ List.length (brecent b') <= bfinst b.
Proof.
  intros R E L. induction R as [|w' o B IH S|w' ty args r c B IH M|w' j b1 d rest B IH E1 D].
  - exists b. auto.
  - destruct IH as (b' & E' & K' & N' & L'). destruct (step_keeps w' i b' o E' (sim_op_finst i o S)) as (b2 & E2 & K2 & N2 & L2).
    exists b2. split; [exact E2|]. split; [congruence|]. split; [congruence|]. rewrite L2, N'. destruct (Nat.eqb (bfinst b) 0) eqn:Z; [exact L'|].
    apply Nat.eqb_neq in Z. apply fold_push_le; [lia|exact L'].
  - exact IH.
  - destruct IH as (b' & E' & K' & N' & L'). cbn. destruct (Nat.eq_dec i j) as [<-|Hn].
    + rewrite E' in E1. injection E1 as <-. eexists. split; [apply (upd_same _ _ _ b' E')|]. cbn. auto.
    + exists b'. rewrite upd_other by exact Hn. auto.
Qed.
Theorem sim_recent_bounded O t s env S i b : respects O -> (forall g, env = Some g -> aloof g) ->
  nth_error (bufs (sw s)) i = Some b -> List.length (brecent b) <= bfinst b ->
  sim_runs O (sim_init t s env) S ->
  exists b', nth_error (bufs (sw (ss S))) i = Some b' /\ bkind b' = bkind b /\ bfinst b' = bfinst b /\ List.length (brecent b') <= bfinst b.
Proof. intros RO A E L R. exact (reach_finsts _ _ i b (sim_reach O t s env S RO A R) E L). Qed.

(** ** Environments *)

Lemma aloof_screens : forall objs ks ts t, aloof (screens t objs ks ts).
Proof.
  induction objs as [|x objs IH]; intros [|k ks] [|d ts] t; cbn [screens aloof]; try exact I. split; [intros s; repeat split; apply incl_refl|apply IH].
Qed.
Theorem env_aloof initial stims trigs times start : aloof (env_process initial stims trigs times start).
Proof. unfold env_process. destruct (prepare _ _ _) as [((objs & ks) & ts)|e]; [|exact I]. cbn [aloof]. apply aloof_screens. Qed.

(** ** Concrete simulations *)

Lemma wx_respects : respects wx_oracle. Proof. repeat split; intros; apply reach_refl. Qed.
Lemma vx_respects : respects vx_oracle. Proof. repeat split; intros; try apply reach_refl. destruct c; apply reach_refl. Qed.

(** The model that presses a key, prepared or not. *)
Definition px_state (prep : bool) : st := set_prep prep (kx_state kx_one).
Notation px_init prep := (sim_init 0 (px_state prep) None).
Definition pressed_at (S : sim) : list Z := map (fun x => fst (fst x)) (filter (fun x => match snd x with WText "KEY PRESSED: A" => true | _ => false end) (trace S)).
Theorem prepared_once : exists O s S S',
  sim_runs O (sim_init 0 s None) S /\ sim_step O S = None /\ sprep s = true /\ sprep (ss S) = false /\ pressed_at S = [1100%Z] /\
  sim_runs O (sim_init 0 (set_prep (sprep (ss S)) s) None) S' /\ pressed_at S' = [2600%Z].
Proof.
  exists wx_oracle, (px_state true), (sim_exec wx_oracle 300 (px_init true)), (sim_exec wx_oracle 300 (px_init false)).
  split; [exact (sim_exec_init wx_oracle 300 (px_init true))|]. split; [vm_compute; reflexivity|]. split; [reflexivity|]. split; [vm_compute; reflexivity|].
  split; [vm_compute; reflexivity|]. split; [|vm_compute; reflexivity].
  assert (E : sprep (ss (sim_exec wx_oracle 300 (px_init true))) = false) by (vm_compute; reflexivity). rewrite E.
  exact (sim_exec_init wx_oracle 300 (px_init false)).
Qed.
