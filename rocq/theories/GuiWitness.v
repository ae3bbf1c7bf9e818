(** Simulations in a window, for the examples and counterexamples about run() with a window. *)
From Verif Require Import Base BaseFacts Chunks DecMem Buffers Productions ProdSpec Sim SimFacts SimWitness ProdWitness EnvWitness Run RunSpec RunFacts RunWitness Gui GuiFacts.
Local Open Scope string_scope.
Local Open Scope list_scope.

Fixpoint rounds_exec (O : oracle) (k : nat) (l : option event) (S : sim) : option (list event * option event * sim) :=
  match k with
  | O => Some ([], l, S)
  | Datatypes.S k' =>
      match peek S with
      | None => Some ([], l, S)
      | Some _ =>
          match dead S, tick_exec O 50 S with
          | None, Some S1 =>
              match dead S1 with
              | None => match rounds_exec O k' (seen l S1) S1 with Some (es, l', S') => Some (fresh l S1 ++ es, l', S') | None => None end
              | Some _ => None
              end
          | _, _ => None
          end
      end
  end.
Lemma rounds_exec_ok O k : forall l S es l' S', rounds_exec O k l S = Some (es, l', S') -> rounds O l S es l' S'.
Proof.
  induction k as [|k IH]; intros l S es l' S' H; cbn [rounds_exec] in H; [injection H as <- <- <-; constructor|].
  destruct (peek S); [|injection H as <- <- <-; constructor]. destruct (dead S) eqn:D; [discriminate|]. destruct (tick_exec O 50 S) as [S1|] eqn:T; [|discriminate].
  destruct (dead S1) eqn:D1; [discriminate|]. destruct (rounds_exec O k (seen l S1) S1) as [[[es1 l1] S2]|] eqn:E; [|discriminate]. injection H as <- <- <-.
  econstructor; eauto. eapply tick_exec_ok. exact T.
Qed.

(** A key is pressed; the second screen comes after two seconds. *)
Notation gw_init := (sim_init 0 (kx_state kx_one) (Some (kx_env "a" [1%Q; 1%Q]))).
Definition gw_ok (o : option (list event * option event * sim)) : bool :=
  match o with
  | Some (es, l, X) => match todo X, dead X, peek X, news l X with [], None, None, None => Z.eqb (now X) 20000 | _, _, _, _ => false end
  | None => false
  end.
Lemma gw_ok_run O S k : gw_ok (rounds_exec O k None S) = true ->
  exists es S1, gui_run O S (es, S1, Exits) /\ now S1 = 20000%Z /\ Some (map ewhat es) = option_map (fun r => map ewhat (fst (fst r))) (rounds_exec O k None S).
Proof.
  intros H. destruct (rounds_exec O k None S) as [[[es l] S1]|] eqn:E; [|discriminate]. cbn [gw_ok] in H. apply rounds_exec_ok in E.
  destruct (todo S1) eqn:T; [|discriminate]. destruct (dead S1) eqn:D; [discriminate|]. destruct (peek S1) eqn:P; [discriminate|]. destruct (news l S1) eqn:N; [discriminate|].
  apply Z.eqb_eq in H. exists es, S1. cbn [option_map fst]. split; [|auto]. pose proof (gui_exits O S es l S1 E T D P) as G. unfold fresh in G. rewrite N, app_nil_r in G. exact G.
Qed.
Definition run_ok (c : call) (o : option (sim * call)) : bool := match o, c with Some (_, Returns), Returns | Some (_, Raises TRuntime), Raises TRuntime => true | _, _ => false end.
Lemma gw_run O u n S c : run_ok c (run_exec O u n S) = true -> exists S1, run O u S (S1, c).
Proof.
  intros H. destruct (run_exec O u n S) as [[S1 c1]|] eqn:E; [|discriminate]. apply run_exec_ok in E. exists S1.
  destruct c1 as [|[]|], c as [|[]|]; cbn [run_ok] in H; try discriminate; exact E.
Qed.
Definition gw_events : list what :=
  [WConflict; WText "STARTING ENVIRONMENT"; WSelected "press"; WFired "press"; WText "MODIFIED"; WText "COMMAND: press_key"; WConflict; WNoRule;
   WText "PREPARATION COMPLETE"; WConflict; WNoRule; WText "INITIATION COMPLETE"; WConflict; WNoRule; WText "KEY PRESSED: A"; WConflict; WNoRule;
   WText "MOVEMENT FINISHED"; WConflict; WNoRule; WText "PRINTED NEW STIMULUS"; WConflict; WNoRule].

Lemma gui_used : exists es S1, gui_run wx_oracle gw_init (es, S1, Exits) /\ now S1 = 20000%Z /\ map ewhat es = gw_events.
Proof.
  destruct (gw_ok_run wx_oracle gw_init 300) as (es & S1 & G & N & E); [vm_compute; reflexivity|]. exists es, S1. split; [exact G|]. split; [exact N|].
  assert (X : option_map (fun r => map ewhat (fst (fst r))) (rounds_exec wx_oracle 300 None gw_init) = Some gw_events) by (vm_compute; reflexivity).
  congruence.
Qed.
(** The time that is given to run() has no effect, and the program is left. *)
Theorem time_refuted : exists O s g u S1 es S2, run O u (sim_init 0 s (Some g)) (S1, Returns) /\ show_time S1 = u /\
  gui_run O (sim_init 0 s (Some g)) (es, S2, Exits) /\ (u < show_time S2)%Z.
Proof.
  destruct (gw_run wx_oracle 3000 1000 gw_init Returns) as (S1 & R); [vm_compute; reflexivity|]. destruct gui_used as (es & S2 & G & N & _).
  exists wx_oracle, (kx_state kx_one), (kx_env "a" [1%Q; 1%Q]), 3000%Z, S1, es, S2. split; [exact R|].
  destruct (session_run_spec _ _ _ _ _ _ _ _ _ (session_start wx_oracle 0 (kx_state kx_one) (Some (kx_env "a" [1%Q; 1%Q]))) R) as [(_ & _ & ?)|(_ & _ & X)]; [discriminate|].
  split; [apply X; reflexivity|]. split; [exact G|]. unfold show_time. rewrite N. reflexivity.
Qed.
Definition fail_ok (O : oracle) (o : option (sim * call)) : bool :=
  match o with
  | Some (S1, Raises TRuntime) => match dead S1, snd (at_end O S1) with Some TRuntime, Returns => true | _, _ => false end
  | _ => false
  end.
Lemma gw_fails O u n S : fail_ok O (run_exec O u n S) = true -> exists S1, run O u S (S1, Raises TRuntime) /\ dead S1 = Some TRuntime /\ snd (at_end O S1) = Returns.
Proof.
  intros H. destruct (run_exec O u n S) as [[S1 [|[]|]]|] eqn:E; cbn [fail_ok] in H; try discriminate. apply run_exec_ok in E. exists S1. split; [exact E|].
  destruct (dead S1) as [[]|]; try discriminate. split; [reflexivity|]. destruct (snd (at_end O S1)); try discriminate. reflexivity.
Qed.
(** An exception does not leave run(). *)
Theorem exception_refuted : exists O s g u S1 f es S2 c, run O u (sim_init 0 s (Some g)) (S1, Raises f) /\ dead S1 = Some f /\
  gui_run O (sim_init 0 s (Some g)) (es, S2, Closed c) /\ c = Returns /\ dead S2 = Some f.
Proof.
  destruct (gw_fails wx_oracle 30000 1000 (sim_init 0 (kx_state kx_one) (Some (kx_env "a" [26 # 100; 1%Q])))) as (S1 & R & D & C); [vm_compute; reflexivity|].
  destruct (gui_loses _ _ _ _ _ _ _ _ _ (session_start wx_oracle 0 (kx_state kx_one) (Some (kx_env "a" [26 # 100; 1%Q]))) R D) as [(es & G) _].
  exists wx_oracle, (kx_state kx_one), (kx_env "a" [26 # 100; 1%Q]), 30000%Z, S1, TRuntime, es, (fst (at_end wx_oracle S1)), (snd (at_end wx_oracle S1)).
  split; [exact R|]. split; [exact D|]. split; [exact G|]. split; [exact C|]. rewrite <- D. apply (at_end_log _ _ _ _ (surjective_pairing _)).
Qed.
