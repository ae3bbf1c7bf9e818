(** Key presses: C39, C40. *)
From Coq Require Import Sorted.
From Verif Require Import BaseFacts Chunks Buffers BufferFacts ModifyFacts Productions ProdSpec ProdWitness Sim SimSpec SimWitness EnvWitness MotorSpec MotorFacts MotorWitness ReachSpec.
Local Open Scope string_scope.
Local Open Scope list_scope.

(** ** C39 *)

(** A press adds nothing to what the environment sees but its key, a known one. *)
Theorem C39_known_keys : forall R O name i c bs t s tr g s' tr' f, of_kind (sw s) i KMotor ->
  runs R (start O MRetrieve name i c bs t) s tr (FCont g) -> runs R g s' tr' f ->
  exists v, known_key v /\ forall h u, In h tr' -> In u (skeys (hafter h)) -> In u (skeys (hbefore h)) \/ u = VStr v.
Proof. exact known_keys. Qed.
Print Assumptions C39_known_keys.

(** In a simulation the environment never sees anything but known keys. *)
Theorem C39_known_keys_in_simulations : forall O t s env S, respects O -> (forall g, env = Some g -> aloof g) ->
  (forall u, In u (skeys s) -> exists v, u = VStr v /\ known_key v) ->
  sim_runs O (sim_init t s env) S -> forall u, In u (skeys (ss S)) -> exists v, u = VStr v /\ known_key v.
Proof. exact sim_keys. Qed.
Print Assumptions C39_known_keys_in_simulations.

(** A request for a key that is not known does nothing that is announced and does not go on. *)
Theorem C39_unknown_keys_rejected : forall R O name i o bs t s tr f y, of_kind (sw s) i KMotor -> asks o bs y ->
  runs R (start O MRetrieve name i (CChunk o) bs t) s tr f -> ~ known_key (upper y) -> events tr = [] /\ forall g, f <> FCont g.
Proof. exact only_known. Qed.
Print Assumptions C39_unknown_keys_rejected.

(** The phases of a press, with the documented durations of the key that is announced: this is the
    key requested.  They start when the preparation is over, or at the recorded end of a movement
    going on. *)
Theorem C39_phases : forall R O name i c bs t s tr g s' tr', of_kind (sw s) i KMotor ->
  runs R (start O MRetrieve name i c bs t) s tr (FCont g) -> runs R g s' tr' FDone ->
  exists x full prep d1 d2 d3 t0, durations x full d1 d2 d3 /\ (0 <= prep <= full)%Q /\
    (t0 = if Qeq_bool (snd (mlast_of s' i)) 0 then t + prep else snd (mlast_of s' i))%Q /\
    events tr = [MkEv (roundtime t) name (WText "COMMAND: press_key");
                 MkEv (roundtime (t + prep)) name (WText "PREPARATION COMPLETE")] /\
    events tr' = [MkEv (roundtime (t0 + d1)) name (WText "INITIATION COMPLETE");
                  MkEv (roundtime (t0 + d1 + d2)) name WUnknown;
                  MkEv (roundtime (t0 + d1 + d2)) name (WText ("KEY PRESSED: " ++ x));
                  MkEv (roundtime (t0 + d1 + d2 + d3)) name (WText "MOVEMENT FINISHED")] /\
    ((t + prep <= t0)%Q -> Sorted Z.le (map etime (events tr ++ events tr'))) /\
    forall o y, c = CChunk o -> asks o bs y -> x = upper y /\ known_key x.
Proof. exact phases. Qed.
Print Assumptions C39_phases.

(** Full statement: presses do not overlap.  Missing: the end of the first movement is still what is
    recorded when the second one is to start (see the refutation). *)
Theorem C39_no_overlap_partial : forall R O name i c1 bs1 t1 s1 tr1 g1 u1 h r1 f1 c2 bs2 t2 s2 tr2 g2 u2 r2 f2,
  of_kind (sw s1) i KMotor -> runs R (start O MRetrieve name i c1 bs1 t1) s1 tr1 (FCont g1) ->
  of_kind (sw s2) i KMotor -> runs R (start O MRetrieve name i c2 bs2 t2) s2 tr2 (FCont g2) ->
  runs R g1 u1 (h :: r1) f1 -> runs R g2 u2 r2 f2 ->
  (0 <= t1)%Q -> (0 <= snd (mlast_of u1 i))%Q -> (i < List.length (smods u1))%nat ->
  mlast_of u2 i = mlast_of (hafter h) i ->
  forall e1 e2, In e1 (events (h :: r1)) -> In e2 (events r2) -> (etime e1 <= etime e2)%Z.
Proof. exact waits. Qed.
Print Assumptions C39_no_overlap_partial.

(** Three presses, requested as soon as the preparation of the one before is over: the third one is
    initiated before the second movement is finished. *)
Theorem C39_no_overlap_refuted : exists O s S, sim_runs O (sim_init 0 s None) S /\ sim_step O S = None /\ ~ one_at_a_time (manual_log S).
Proof. exact overlap. Qed.
Print Assumptions C39_no_overlap_refuted.

Example C39_example : of_kind (sw (mx_after "A")) 1 KMotor /\ asks (kx_key "s") nobind "s" /\
  known_key "S" /\ ~ known_key "ENTER" /\
  exists tr g tr', runs eq (start wx_oracle MRetrieve "manual" 1 (CChunk (kx_key "s")) nobind 1) (mx_after "A") tr (FCont g) /\
  runs eq g (mx_after "A") tr' FDone /\
  events tr' = [MkEv 11000 "manual" (WText "INITIATION COMPLETE"); MkEv 11100 "manual" WUnknown; MkEv 11100 "manual" (WText "KEY PRESSED: S");
                MkEv 12000 "manual" (WText "MOVEMENT FINISHED")].
Proof.
  split; [exists (MkBuf KMotor [] None 0 [] [] None 0); split; reflexivity|]. split; [apply mx_asks; [repeat split; discriminate|discriminate|reflexivity]|].
  split; [left; cbn; tauto|]. split; [|exact mx_runs]. unfold known_key, left_keys, right_keys. cbn. intuition congruence.
Qed.
Example C39_rejected_example : asks (kx_key "enter") nobind "enter" /\ upper "enter" = "ENTER" /\
  exists tr, runs eq (start wx_oracle MRetrieve "manual" 1 (CChunk (kx_key "enter")) nobind 1) (mx_after "A") tr (FRaise EActr).
Proof.
  split; [apply mx_asks; [repeat split; discriminate|discriminate|reflexivity]|]. split; [reflexivity|]. eexists. apply runs_raise. vm_compute. reflexivity.
Qed.

(** ** C40 *)

(** Full statement: without the guard on the hands and movements of different keys. *)
Theorem C40_preparation_partial : forall R O name i o bs t s tr g y (prev : option string), of_kind (sw s) i KMotor -> asks o bs y -> sprep s = false ->
  fst (mlast_of s i) = match prev with Some l => Some (key_of l) | None => None end ->
  (forall l, prev = Some l -> l <> upper y -> same_move (upper y) l /\ same_hand (upper y) l) ->
  runs R (start O MRetrieve name i (CChunk o) bs t) s tr (FCont g) ->
  forall full d1 d2 d3, durations (upper y) full d1 d2 d3 -> exists d, prepares (upper y) full prev d /\
    events tr = [MkEv (roundtime t) name (WText "COMMAND: press_key"); MkEv (roundtime (t + d)) name (WText "PREPARATION COMPLETE")].
Proof. exact prep_ok. Qed.
Print Assumptions C40_preparation_partial.

(** What holds instead: a different key always saves 100 ms. *)
Theorem C40_always_100_ms : forall R O name i o bs t s tr g y l, of_kind (sw s) i KMotor -> asks o bs y -> sprep s = false ->
  fst (mlast_of s i) = Some (key_of l) -> l <> upper y ->
  runs R (start O MRetrieve name i (CChunk o) bs t) s tr (FCont g) ->
  forall full d1 d2 d3, durations (upper y) full d1 d2 d3 ->
    events tr = [MkEv (roundtime t) name (WText "COMMAND: press_key"); MkEv (roundtime (t + (full - (1 # 10)))) name (WText "PREPARATION COMPLETE")].
Proof. exact prep_always. Qed.
Print Assumptions C40_always_100_ms.

Theorem C40_preparation_refuted : exists O s S, sim_runs O (sim_init 0 s None) S /\ sim_step O S = None /\
  same_move "J" "A" /\ ~ same_hand "J" "A" /\
  In (2600%Z, WText "KEY PRESSED: A") (manual_log S) /\ In (4000%Z, WText "COMMAND: press_key") (manual_log S) /\
  In (4500%Z, WText "PREPARATION COMPLETE") (manual_log S) /\ In (5100%Z, WText "KEY PRESSED: J") (manual_log S) /\
  forall d, prepares "J" (15 # 100) (Some "A") d -> roundtime ((4000 # 10000) + d) = 5000%Z.
Proof. exact hands_ignored. Qed.
Print Assumptions C40_preparation_refuted.

Example C40_example : fst (mlast_of (mx_after "A") 1) = Some (key_of "A") /\ sprep (mx_after "A") = false /\ same_move "S" "A" /\ same_hand "S" "A" /\
  durations "S" (15 # 100) (5 # 100) (1 # 100) (9 # 100) /\ asks (kx_key "s") nobind "s".
Proof.
  repeat (split; [first [reflexivity|unfold same_move, same_hand; cbn; intuition congruence|apply dur_home; cbn; tauto]|]).
  apply mx_asks; [repeat split; discriminate|discriminate|reflexivity].
Qed.
