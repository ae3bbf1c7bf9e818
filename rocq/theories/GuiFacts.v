(** Running a simulation in a window: the same states as without a window, and all of them. *)
From Coq Require Import Lia.
From Verif Require Import Base BaseFacts Chunks DecMem Buffers BufferFacts Productions ProdSpec Sim SimFacts Run RunSpec RunFacts Gui.
Local Open Scope list_scope.

Lemma rounds_rest O l S es l' S' : rounds O l S es l' S' -> rest S -> rest S' /\ (now S <= now S')%Z.
Proof.
  intros H. induction H as [l S|l S S1 es l' S' Hd T D H IH]; intros R; [split; [exact R|lia]|].
  destruct (tick_sum _ _ _ (re_inv _ R) T) as (I1 & I2 & I3 & _). destruct IH as [I4 I5]; [constructor; auto|]. split; [exact I4|lia].
Qed.
Lemma fresh_trace l S new tr : trace_of S = tr ++ new -> (new = [] \/ exists e, new = [e]) ->
  l = last (map Some tr) None -> squashed l new (fresh l S) /\ seen l S = last (map Some (tr ++ new)) None.
Proof.
  intros E [->|(e & ->)] ->.
  - rewrite app_nil_r in *. assert (C : current_event S = last (map Some tr) None) by (unfold current_event; rewrite E; reflexivity).
    assert (N : news (last (map Some tr) None) S = None).
    { destruct (news _ S) as [e|] eqn:N; [|reflexivity]. apply news_spec in N. destruct N as [N1 N2]. congruence. }
    unfold fresh, seen. rewrite N. split; [constructor|reflexivity].
  - assert (C : current_event S = Some e) by (eapply current_snoc; exact E). rewrite map_app. cbn [map]. rewrite last_last.
    unfold fresh, seen. destruct (news _ S) as [e'|] eqn:N.
    + apply news_spec in N. destruct N as [N1 N2]. rewrite C in N1. injection N1 as <-. split; [constructor; [exact N2|constructor]|reflexivity].
    + assert (L : last (map Some tr) None = Some e).
      { destruct (last (map Some tr) None) as [x|] eqn:L.
        - destruct (event_eqb e x) eqn:B; [apply event_eqb_eq in B; congruence|]. unfold news in N. rewrite C, B in N. discriminate.
        - unfold news in N. rewrite C in N. discriminate. }
      rewrite L. split; [constructor; constructor|reflexivity].
Qed.
Lemma current_last S : current_event S = last (map Some (trace_of S)) None.
Proof. reflexivity. Qed.
Lemma rounds_trace O l S es l' S' : rounds O l S es l' S' -> rest S -> current_event S = l ->
  current_event S' = l' /\ exists new, trace_of S' = trace_of S ++ new /\ squashed l new es.
Proof.
  intros H. induction H as [l S|l S S1 es l' S' Hd T D H IH]; intros R C.
  - split; [exact C|]. exists []. rewrite app_nil_r. split; [reflexivity|constructor].
  - destruct (tick_sum _ _ _ (re_inv _ R) T) as (I1 & I2 & I3 & _). assert (R1 : rest S1) by (constructor; auto).
    assert (X : exists new, trace_of S1 = trace_of S ++ new /\ (new = [] \/ exists e, new = [e])).
    { destruct (trace_tick _ _ _ (re_inv _ R) T) as [E|(e & E)]; [exists []; rewrite app_nil_r; auto|eauto]. }
    destruct X as (new & E & X). destruct (fresh_trace l S1 new (trace_of S) E X) as [Q1 Q2]; [rewrite <- current_last; auto|].
    destruct (IH R1) as (C' & new' & E' & Q'); [rewrite Q2, <- E; reflexivity|]. split; [exact C'|].
    exists (new ++ new'). rewrite E', E, app_assoc. split; [reflexivity|]. apply squashed_app; [exact Q1|].
    assert (La : last (map Some new) l = seen l S1).
    { rewrite Q2. destruct X as [->|(e & ->)]; [rewrite app_nil_r; cbn; rewrite <- C; reflexivity|rewrite map_app; cbn; rewrite last_last; reflexivity]. }
    rewrite La. exact Q'.
Qed.

(** The rounds of the second thread make up the loop in simpy's run. *)
Lemma drain_loop O u S S1 S2 : drain O S S1 -> (dead S1 = None -> loop O u S1 S2) -> (forall t, dead S1 = Some t -> S2 = S1) -> loop O u S S2.
Proof.
  intros D. induction D as [S t Hd|S Hd Ht|S S1 S3 Hd Ht Hs D IH]; intros L F.
  - rewrite (F _ Hd). eapply loop_dead. exact Hd.
  - apply L. exact Hd.
  - eapply loop_step; [exact Hd| |exact Hs|apply IH; assumption]. unfold reached, between. destruct (todo S); [congruence|reflexivity].
Qed.
Lemma tick_loop O u S S1 S2 : Inv2 S -> dead S = None -> tick O S S1 -> (now S1 < u)%Z -> loop O u S1 S2 -> loop O u S S2.
Proof.
  intros H Hd (S0 & Et & Hs & D) L Lp. destruct (drain_sum _ _ _ D (step_ok2 _ _ _ H Hs)) as (_ & N & _).
  eapply loop_step; [exact Hd| |exact Hs|].
  - unfold reached, between. rewrite Et. cbn [andb]. destruct (peek S) as [t|] eqn:P.
    + apply Z.leb_gt. unfold sim_step in Hs. rewrite Hd, Et in Hs. unfold peek in P. destruct (pop_min (heap S)) as [[q h]|]; [|discriminate]. injection P as <-.
      assert (N0 : now S0 = qtime q).
      { cbv zeta in Hs. destruct (event_at _ _); injection Hs as <-; [|reflexivity]. cbn [now set_todo]. unfold exec_, set_event, upd_. cbn [fst]. destruct (nth_error _ _); reflexivity. }
      lia.
    + apply peek_none in P. unfold sim_step in Hs. rewrite Hd, Et, P in Hs. discriminate.
  - eapply drain_loop; [exact D|auto|]. intros t Dt. inversion Lp; congruence.
Qed.
Lemma rounds_loop O u l S es l' S' S2 : rounds O l S es l' S' -> rest S -> (now S' < u)%Z -> loop O u S' S2 -> loop O u S S2.
Proof.
  intros H. induction H as [l S|l S S1 es l' S' Hd T D H IH]; intros R L Lp; [exact Lp|].
  destruct (tick_sum _ _ _ (re_inv _ R) T) as (I1 & I2 & I3 & _). assert (R1 : rest S1) by (constructor; auto).
  pose proof (proj2 (rounds_rest _ _ _ _ _ _ H R1)) as M. eapply tick_loop; [apply R|exact Hd|exact T|lia|]. apply IH; assumption.
Qed.
Lemma loop_rounds O u S S1 t : loop O u S S1 -> dead S1 = Some t -> dead S = None ->
  exists S', drain O S S' /\ ((dead S' = Some t /\ S' = S1) \/
    (dead S' = None /\ forall l, exists es l' S0, rounds O l S' es l' S0 /\ dead S0 = None /\ tick O S0 S1)).
Proof.
  intros L Dt. induction L as [S t' Hd|S Hd Hr|S S1 S2 Hd Hr Hs L IH]; intros N; [congruence|congruence|]. specialize (IH Dt).
  destruct (dead S1) as [t1|] eqn:D1.
  - assert (S2 = S1) by (inversion L; congruence). subst S2. assert (t1 = t) by congruence. subst t1. destruct (todo S) as [|w r] eqn:Et.
    + exists S. split; [apply drain_done; assumption|]. right. split; [exact Hd|]. intros l. exists [], l, S. split; [constructor|]. split; [exact Hd|].
      exists S1. split; [exact Et|]. split; [exact Hs|]. eapply drain_dead. exact D1.
    + exists S1. split; [|left; auto]. eapply drain_step; [exact Hd|congruence|exact Hs|]. eapply drain_dead. exact D1.
  - destruct (IH eq_refl) as (S' & D & A). destruct (todo S) as [|w r] eqn:Et.
    + exists S. split; [apply drain_done; assumption|]. right. split; [exact Hd|]. intros l. assert (T : tick O S S') by (exists S1; auto). destruct A as [[Ds ->]|[Ds A]].
      * exists [], l, S. split; [constructor|]. auto.
      * destruct (A (seen l S')) as (es & l' & S0 & B1 & B2 & B3). exists (fresh l S' ++ es), l', S0. split; [econstructor; eauto|]. auto.
    + exists S'. split; [|exact A]. eapply drain_step; [exact Hd|congruence|exact Hs|exact D].
Qed.

(** ** The theorems *)

Lemma at_end_log O S S' c : at_end O S = (S', c) -> trace_of S' = trace_of S /\ dead S' = dead S.
Proof. intros E. destruct (at_end_sum _ _ _ _ E) as (x & ->). split; reflexivity. Qed.
Lemma init_trace t s env : trace_of (sim_init t s env) = [].
Proof. unfold trace_of. destruct (init_hush t s env) as (_ & _ & -> & _). reflexivity. Qed.

(** What is shown is the trace. *)
Theorem gui_trace O t s env es S x : gui_run O (sim_init t s env) (es, S, x) ->
  exists tr tr', trace_of S = tr ++ tr' /\ squashed None tr es /\ (dead S = None -> tr' = []) /\ (x = Exits -> heap S = [] /\ dead S = None).
Proof.
  intros G. pose proof (init_trace t s env) as E0. pose proof (init_rest t s env) as R0. inversion G as [es0 l S1 H Ht Hd Hp|es0 l S1 S2 c H He|es0 l S1 S2 S3 f c H Hd T Df He]; subst;
    destruct (rounds_trace _ _ _ _ _ _ H R0 (current_nil _ E0)) as (C & new & E & Q); rewrite E0 in E; cbn [app] in E.
  - exists (trace_of S), []. rewrite app_nil_r. split; [reflexivity|]. split; [|split; [auto|intros _; split; [apply peek_none; exact Hp|exact Hd]]].
    assert (N : fresh l S = []).
    { unfold fresh. destruct (news l S) as [e|] eqn:N; [|reflexivity]. apply news_spec in N. destruct N as [N1 N2]. congruence. }
    rewrite N, app_nil_r, E. exact Q.
  - destruct (at_end_log _ _ _ _ He) as [L1 L2]. exists new, []. rewrite L1, E, app_nil_r. repeat split; auto; discriminate.
  - destruct (at_end_log _ _ _ _ He) as [L1 L2]. destruct (rounds_rest _ _ _ _ _ _ H R0) as [R1 _].
    assert (M : exists new', trace_of S = new ++ new').
    { rewrite L1. destruct (trace_tick _ _ _ (re_inv _ R1) T) as [->|(e & ->)]; rewrite E; [exists []; rewrite app_nil_r; auto|eauto]. }
    destruct M as (new' & M). exists new, new'. repeat split; auto; try discriminate. congruence.
Qed.

(** A run in a window that ends by itself goes as far as any run that is long enough. *)
Theorem gui_whole O t s env S l es S1 u : session O t s env S l -> gui_run O S (es, S1, Exits) -> (now S1 < u)%Z -> run O u S (at_end O (set_now u S1)).
Proof.
  intros Se G L. apply session_rest in Se. inversion G as [es0 l0 S2 H Ht Hd Hp| |]; subst. destruct (rounds_rest _ _ _ _ _ _ H Se) as [_ M].
  apply run_returns; [lia| |exact Hd]. eapply rounds_loop; [exact H|exact Se|exact L|]. apply loop_stop; [exact Hd|]. unfold reached, between. rewrite Ht, Hp. reflexivity.
Qed.

(** An exception that ends a run without a window is lost in a window, and the window stays. *)
Theorem gui_loses O t s env S l u S1 f : session O t s env S l -> run O u S (S1, Raises f) -> dead S1 = Some f ->
  (exists es, gui_run O S (es, fst (at_end O S1), Closed (snd (at_end O S1)))) /\ (forall es S2, ~ gui_run O S (es, S2, Exits)).
Proof.
  intros Se R D. apply session_rest in Se. inversion R as [L E|S1' f' L Lp D' E|S1' L Lp D' E]; subst.
  - destruct Se as [_ _ Hd]. congruence.
  - split.
    + destruct (loop_rounds _ _ _ _ _ Lp D (re_dead _ Se)) as (S' & Dr & A). assert (S' = S).
      { inversion Dr; subst; auto. destruct Se. congruence. }
      subst S'. destruct A as [[A _]|[_ A]]; [destruct Se; congruence|]. destruct (A None) as (es & l' & S0 & B1 & B2 & B3). exists es. eapply gui_fails; eauto. apply surjective_pairing.
    + intros es S2 G. inversion G as [es0 l0 S3 H Ht Hd Hp| |]; subst. destruct (rounds_rest _ _ _ _ _ _ H Se) as [_ M].
      set (v := Z.max u (now S2 + 1)). assert (L1 : loop O v S S2).
      { eapply rounds_loop; [exact H|exact Se|subst v; lia|]. apply loop_stop; [exact Hd|]. unfold reached, between. rewrite Ht, Hp. reflexivity. }
      assert (X : run O v S (S1, Raises f)) by (apply (run_fails' O u v S S1 f); [subst v; lia|apply run_raises; assumption|exact D]).
      assert (Y : run O v S (at_end O (set_now v S2))) by (apply run_returns; [subst v; lia|exact L1|exact Hd]).
      pose proof (run_fun _ _ _ _ _ X Y) as Z. symmetry in Z. destruct (at_end_log _ _ _ _ Z) as [_ K]. cbn [dead set_now] in K. congruence.
  - destruct (at_end_log _ _ _ _ E) as [_ K]. cbn [dead set_now] in K. congruence.
Qed.
