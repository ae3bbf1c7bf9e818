(** Windows of simulations, for the examples and counterexamples about what is drawn. *)
From Verif Require Import Base BaseFacts Chunks DecMem Buffers Productions ProdSpec ProdWitness Environment Sim SimFacts SimWitness EnvWitness Run RunSpec RunFacts RunWitness Window WindowSpec WindowFacts.
Local Open Scope string_scope.
Local Open Scope list_scope.

Definition q_dec (a b : Q) : {a = b} + {a <> b}. Proof. decide equality; [apply Pos.eq_dec|apply Z.eq_dec]. Defined.
Definition stim_dec (a b : stimulus) : {a = b} + {a <> b}.
Proof.
  decide equality; try apply q_dec.
  - apply (list_eq_dec (fun x y : string * string => ltac:(decide equality; apply string_dec))).
  - decide equality. apply (list_eq_dec string_dec).
  - decide equality. apply string_dec.
  - decide equality. apply string_dec.
  - decide equality. apply q_dec.
  - decide equality. apply string_dec.
Defined.
Definition send (old : option (list stimulus)) (S : sim) : list (list stimulus) * option (list stimulus) :=
  match on_screen S with
  | None | Some [] => ([], old)
  | Some l => match old with Some l' => if list_eq_dec stim_dec l' l then ([], old) else ([l], Some l) | None => ([l], Some l) end
  end.
Lemma send_ok old S : sends old S (fst (send old S)) (snd (send old S)).
Proof.
  unfold send. destruct (on_screen S) as [[|x l]|] eqn:E; [apply sends_blank; auto| |apply sends_blank; auto]. destruct old as [l'|].
  - destruct (list_eq_dec stim_dec l' (x :: l)) as [->|N]; [eapply sends_old; eauto; discriminate|apply sends_new; [exact E|discriminate|congruence]].
  - apply sends_new; [exact E|discriminate|discriminate].
Qed.
Fixpoint watch_exec (O : oracle) (k : nat) (old : option (list stimulus)) (S : sim) : option (list (list stimulus) * option (list stimulus) * sim) :=
  match k with
  | O => Some ([], old, S)
  | Datatypes.S k' =>
      match peek S with
      | None => Some ([], old, S)
      | Some _ =>
          match dead S, tick_exec O 50 S with
          | None, Some S1 =>
              match dead S1 with
              | None => match watch_exec O k' (snd (send old S1)) S1 with Some (ms, old', S') => Some (fst (send old S1) ++ ms, old', S') | None => None end
              | Some _ => None
              end
          | _, _ => None
          end
      end
  end.
Lemma watch_exec_ok O k : forall old S ms old' S', watch_exec O k old S = Some (ms, old', S') -> watched O old S ms old' S'.
Proof.
  induction k as [|k IH]; intros l S es l' S' H; cbn [watch_exec] in H; [injection H as <- <- <-; constructor|].
  destruct (peek S); [|injection H as <- <- <-; constructor]. destruct (dead S) eqn:D; [discriminate|]. destruct (tick_exec O 50 S) as [S1|] eqn:T; [|discriminate].
  destruct (dead S1) eqn:D1; [discriminate|]. destruct (watch_exec O k _ S1) as [[[es1 l1] S2]|] eqn:E; [|discriminate]. injection H as <- <- <-.
  econstructor; eauto; [eapply tick_exec_ok; exact T|apply send_ok].
Qed.
(** What is sent, and what is on the screen at the end. *)
Definition seen_of (o : option (list (list stimulus) * option (list stimulus) * sim)) : option (list (list stimulus) * option (list stimulus) * Z) :=
  match o with Some (ms, _, X) => Some (ms, on_screen X, now X) | None => None end.
Lemma seen_ok O k S ms scr t : seen_of (watch_exec O k None S) = Some (ms, scr, t) -> exists old S', watched O None S ms old S' /\ on_screen S' = scr /\ now S' = t.
Proof.
  intros H. destruct (watch_exec O k None S) as [[[ms' old'] S']|] eqn:E; [|discriminate]. cbn [seen_of] in H. injection H as <- <- <-.
  apply watch_exec_ok in E. eauto.
Qed.
Definition tk_all (_ : string) : bool := true.
(** A text, then an empty screen. *)
Definition ww_blank : one_or_many stim_arg := AMany [StMap [("1", Some (kx_obj "one"))]; StMap []].
Notation ww_env x := (env_process 0 x (AOne (TrText "b")) (AOne 1%Q) 0).

Theorem blank_refuted : exists O s tk stimuli ms old S, watched O None (sim_init 0 s (Some (ww_env stimuli))) ms old S /\
  on_screen S = Some [] /\ window tk (Some []) ms = Some [("one", 10%Q, 10%Q)].
Proof.
  destruct (seen_ok wx_oracle 300 (sim_init 0 (kx_state kx_one) (Some (ww_env ww_blank))) [[kx_obj "one"]] (Some []) 20000) as (old & S & W & E & _); [vm_compute; reflexivity|].
  exists wx_oracle, (kx_state kx_one), tk_all, ww_blank, [[kx_obj "one"]], old, S. split; [exact W|]. split; [exact E|reflexivity].
Qed.
(** Stimuli that are given as texts cannot be drawn. *)
Theorem text_refuted : exists O s stimuli ms old S, watched O None (sim_init 0 s (Some (ww_env stimuli))) ms old S /\
  stimuli = AMany [StOther "A"; StOther "B"] /\ forall tk, window tk (Some []) ms = None.
Proof.
  destruct (seen_ok wx_oracle 300 (sim_init 0 (kx_state kx_one) (Some (ww_env (AMany [StOther "A"; StOther "B"])))) [[default_stim]] (Some [default_stim]) 20000) as (old & S & W & E & _); [vm_compute; reflexivity|].
  exists wx_oracle, (kx_state kx_one), (AMany [StOther "A"; StOther "B"]), [[default_stim]], old, S. split; [exact W|]. split; [reflexivity|]. intros tk. reflexivity.
Qed.
(** Two screens, one after the other. *)
Theorem window_used : Forall (plain_screen tk_all) (as_list kx_screens) /\ xstim (sscreen (kx_state kx_one)) = None /\
  exists ms old S, watched wx_oracle None (sim_init 0 (kx_state kx_one) (Some (ww_env kx_screens))) ms old S /\
    on_screen S = Some [kx_obj "two"] /\ ms = [[kx_obj "one"]; [kx_obj "two"]] /\ window tk_all (Some []) ms = Some [("two", 10%Q, 10%Q)].
Proof.
  split; [|split; [reflexivity|]].
  - assert (Y : forall x y, plain_screen tk_all (StMap [(x, Some (kx_obj y))])) by (intros x y; exists [(x, Some (kx_obj y))]; split; [reflexivity|]; split; [discriminate|]; intros n o [[= <- <-]|[]]; eexists; split; [reflexivity|repeat split; discriminate]).
    repeat constructor; apply Y.
  - destruct (seen_ok wx_oracle 300 (sim_init 0 (kx_state kx_one) (Some (ww_env kx_screens))) [[kx_obj "one"]; [kx_obj "two"]] (Some [kx_obj "two"]) 20000) as (old & S & W & E & _); [vm_compute; reflexivity|].
    exists [[kx_obj "one"]; [kx_obj "two"]], old, S. split; [exact W|]. split; [exact E|]. split; reflexivity.
Qed.
