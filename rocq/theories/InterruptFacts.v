(** Processes that have ended, and processes that are interrupted. *)
From Coq Require Import Lia Sorted.
From Verif Require Import Base BaseFacts Chunks DecMem Buffers BufferFacts Productions ProdSpec Sim SimSpec SimFacts SerialFacts StoryFacts.
Local Open Scope string_scope.
Local Open Scope list_scope.
Local Open Scope nat_scope.

(** The process [p] has ended. *)
Definition gone (p : nat) (S : sim) : Prop := exists r, proc_at p S = Some r /\ pcode r = KEnd.

Lemma gone_same p S S' : prs S' = prs S -> gone p S -> gone p S'.
Proof. intros E (r & Hr & K). exists r. unfold proc_at in *. rewrite E. auto. Qed.
Lemma exec_event_prs ev f S : prs (exec_ (set_event ev f) S) = prs S.
Proof. unfold exec_, set_event, upd_. cbn [fst]. destruct (nth_error _ _); reflexivity. Qed.
Lemma set_prc_other p q f S : q <> p -> proc_at q (set_prc p f S) = proc_at q S.
Proof. intros N. unfold set_prc, proc_at. destruct (nth_error (prs S) p); [|reflexivity]. cbn [prs set_prs]. apply upd_other. exact N. Qed.
Lemma hand_over_other p q ev S : q <> p -> proc_at q (hand_over p ev S) = proc_at q S.
Proof.
  intros N. unfold hand_over. destruct (event_at ev S) as [e|]; [|reflexivity].
  assert (A : forall f, proc_at q (set_prc p f (exec_ (add_cb ev (CResume p)) S)) = proc_at q S).
  { intros f. rewrite set_prc_other by exact N. unfold proc_at, add_cb. rewrite exec_event_prs. reflexivity. }
  destruct (ecbs e); [apply A|]. destruct (evalue e) as [[v|t]|]; [reflexivity| |apply A].
  unfold proc_at. cbn [prs set_todo]. unfold defuse. rewrite exec_event_prs. reflexivity.
Qed.
Lemma end_process_other p q o S : q <> p -> proc_at q (end_process p o S) = proc_at q S.
Proof.
  intros N. unfold end_process. rewrite <- (set_prc_other p q (fun r => MkPrc (pkind r) (pown r) (ptarget r) KEnd) S N).
  generalize (set_prc p (fun r => MkPrc (pkind r) (pown r) (ptarget r) KEnd) S). intros S1. unfold exec_, bind, set_event, schedule, upd_. cbn [fst].
  destruct (nth_error _ _); reflexivity.
Qed.

Lemma gone_step O p S S' : Inv S -> Jc S -> sim_step O S = Some S' -> gone p S -> gone p S'.
Proof.
  intros H J. unfold sim_step. destruct (dead S); [discriminate|]. destruct (todo S) as [|w l] eqn:Et.
  - destruct (pop_min (heap S)) as [[q h]|]; [|discriminate]. cbv zeta. destruct (event_at _ _) as [e|]; intros [= <-] G; [|exact G].
    apply (gone_same p S); [|exact G]. cbn [prs set_todo]. rewrite exec_event_prs. reflexivity.
  - intros [= <-] G. destruct (Inv_tail _ _ _ H Et) as [H1 _]. set (S1 := set_todo l S) in *. assert (G1 : gone p S1) by exact G.
    destruct w as [ev [q|q|c]|q o|ev]; cbn [work_off].
    + destruct (event_at ev S1) as [e|]; [|exact G1]. destruct (evalue e) as [o|]; [|exact G1].
      apply (gone_same p S1); [|exact G1]. cbn [prs set_todo]. destruct o; [reflexivity|]. apply exec_event_prs.
    + destruct (ended q S1); [exact G1|]. destruct (nth_error (prs S1) q) as [r|]; [|exact G1].
      apply (gone_same p S1); [|exact G1]. cbn [prs set_todo]. apply exec_event_prs.
    + assert (Hin : In (WCb ev (CCheck c)) (todo S)) by (rewrite Et; left; reflexivity).
      pose proof (tri_check side c ev S1 (fun _ _ => True) H1 (i_chkw _ H _ _ Hin) (fun _ => I)) as T. unfold tri in T. unfold exec_.
      destruct (check c ev S1) as [S2 x]. destruct T as (_ & F & _). destruct G1 as (r & Hr & K). exists r. split; [eapply frame_proc; eauto|exact K].
    + change (nth_error (prs S1) q) with (proc_at q S1). destruct (proc_at q S1) as [r|] eqn:Hr; [|exact G1].
      destruct G as (rp & Hp & K). assert (N : p <> q).
      { intros ->. pose proof (j_end _ J _ _ Hp K) as T. unfold tok, tokT in T. rewrite Et, wsum_cons in T. cbn [tokW] in T. rewrite Nat.eqb_refl in T. lia. }
      pose proof (i_kind _ H1 q r Hr) as [Hk Hkn]. pose proof (i_fits _ H1 q r Hr) as Hf.
      assert (T : tri2 (go_on O q (pcode r) o) S1 (lands (pkind r))).
      { apply (go_on_ok _ _ _ _ _ (ptarget r)); auto; [destruct Hk; auto|apply (i_env _ H1 _ _ Hr)|].
        intros v t -> D. apply (i_due _ H q r v t Hr); [|exact D]. rewrite Et. left. reflexivity. }
      unfold tri2 in T. destruct (go_on O q (pcode r) o S1) as [S2 x]. destruct T as (_ & W & _).
      pose proof (wide_proc _ _ _ _ W Hp) as Hp2. destruct x as [[c ev|v]|t]; exists rp; (split; [|exact K]).
      * rewrite hand_over_other, set_prc_other by exact N. exact Hp2.
      * rewrite end_process_other by exact N. exact Hp2.
      * rewrite end_process_other by exact N. exact Hp2.
    + destruct (event_at ev S1) as [e|]; [|exact G1]. destruct (evalue e) as [[v|t]|]; try exact G1. destruct (edefused e); exact G1.
Qed.

Lemma told_runs O s0 S S' : told O s0 S -> sim_runs O S S' -> told O s0 S'.
Proof. intros T H. induction H as [|S S1 S2 R IH Hs]; [exact T|]. eapply told_sim_step; [apply IH; exact T|exact Hs]. Qed.
Lemma gone_runs O s0 p S S' : told O s0 S -> sim_runs O S S' -> gone p S -> gone p S'.
Proof.
  intros T H G. induction H as [|S S1 S2 R IH Hs]; [exact G|]. pose proof (told_runs _ _ _ _ T R) as T1.
  eapply gone_step; [apply T1|apply T1|exact Hs|]. apply IH; assumption.
Qed.
Lemma gone_never_runs O s0 p S o l : told O s0 S -> gone p S -> todo S <> WRun p o :: l.
Proof.
  intros T (r & Hr & K) E. pose proof (j_end _ (t_jc _ _ _ T) _ _ Hr K) as Tk. unfold tok, tokT in Tk. rewrite E, wsum_cons in Tk. cbn [tokW] in Tk. rewrite Nat.eqb_refl in Tk. lia.
Qed.

Theorem interrupted_ends O t s env S S1 p r n l : (forall g, env = Some g -> outside g) -> sim_runs O (sim_init t s env) S ->
  todo S = WRun p (Bad TInterrupt) :: l -> proc_at p S = Some r -> pkind r = Some (GLocal false n) -> sim_step O S = Some S1 ->
  ss S1 = ss S /\ log S1 = log S /\ forall S2 o l', sim_runs O S1 S2 -> todo S2 <> WRun p o :: l'.
Proof.
  intros He R Et Hr Hk Hs. pose proof (sim_told O t s env S He R) as T. pose proof (told_sim_step _ _ _ _ T Hs) as T1.
  assert (Ne : pcode r <> KEnd) by (intros K; apply (gone_never_runs O s p S (Bad TInterrupt) l T); [exists r; auto|exact Et]).
  assert (E1 : exists o, S1 = end_process p o (set_todo l S)).
  { revert Hs. unfold sim_step. destruct (dead S); [discriminate|]. rewrite Et. intros E. assert (E' : S1 = work_off O (WRun p (Bad TInterrupt)) (set_todo l S)) by congruence. rewrite E'. cbn [work_off].
    assert (Hr1 : nth_error (prs (set_todo l S)) p = Some r) by exact Hr. rewrite Hr1.
    destruct (i_kind _ (t_inv _ _ _ T) _ _ Hr) as [[K|K] _]; [contradiction|]. rewrite Hk in K.
    destruct (pcode r) as [| | | | | | | |b n' g|b n' e g| | | | |]; try discriminate; cbn [go_on]; unfold throw, ret; eexists; reflexivity. }
  destruct E1 as (o & ->). assert (H1 : Inv (set_todo l S)) by (apply (Inv_tail _ _ _ (t_inv _ _ _ T) Et)).
  pose proof (end_process_stopped (set_todo l S) p r o H1 Hr) as Sp. split; [exact (s_ss _ _ _ _ _ Sp)|]. split; [exact (s_log _ _ _ _ _ Sp)|].
  intros S2 o2 l2 R2. apply (gone_never_runs O s p S2 o2 l2).
  - eapply told_runs; eauto.
  - eapply gone_runs; eauto. exists (MkPrc (pkind r) (pown r) (ptarget r) KEnd). split; [|reflexivity]. rewrite (stopped_proc _ _ _ _ _ Sp Hr), Nat.eqb_refl. reflexivity.
Qed.
