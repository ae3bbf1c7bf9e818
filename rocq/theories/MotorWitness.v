(** Key presses in whole simulations. *)
From Verif Require Import BaseFacts Chunks ChunkMatch SplitFacts ModifyFacts ResolveFacts DecMem Buffers BufferFacts Productions ProdSpec ProdWitness Environment Sim SimSpec SimWitness EnvWitness MotorSpec MotorFacts ReachSpec LiftFacts ReachFacts.
Local Open Scope string_scope.
Local Open Scope list_scope.

Theorem sim_keys O t s env S : respects O -> (forall g, env = Some g -> aloof g) ->
  (forall u, In u (skeys s) -> exists v, u = VStr v /\ known_key v) ->
  sim_runs O (sim_init t s env) S -> forall u, In u (skeys (ss S)) -> exists v, u = VStr v /\ known_key v.
Proof.
  intros RO A H0 R. refine (sim_keeps (fun s' => forall u, In u (skeys s') -> exists v, u = VStr v /\ known_key v) _ O RO t s env S H0 A R). split.
  - intros s1 s2 _ _ _ _ _ K H u U. destruct (K u U) as [X|X]; [apply H; exact X|exact X].
  - intros s1 w _ H. exact H.
Qed.

(** What the motor module announces. *)
Definition manual_log (S : sim) : list (Z * what) :=
  map (fun x => (fst (fst x), snd x)) (filter (fun x => String.eqb (snd (fst x)) "manual") (trace S)).
(** A movement is finished before the next one is initiated. *)
Definition one_at_a_time (l : list (Z * what)) : Prop :=
  forall a t1 b t2 c, l = a ++ (t1, WText "INITIATION COMPLETE") :: b ++ (t2, WText "INITIATION COMPLETE") :: c ->
    exists t, In (t, WText "MOVEMENT FINISHED") b.

(** =g> step x  ?manual> preparation free ==> =g> step y  +manual> cmd press_key key k *)
Definition mx_rule (x y k : string) : rule :=
  MkRule [("=g", CChunk (wx_goal x)); ("?manual", CDict [("preparation", "free")])]
         [("=g", CChunk (wx_goal y)); ("+manual", CChunk (kx_key k))] 0 None.
Definition mx_three : dict rule := [("one", mx_rule "start" "b" "a"); ("two", mx_rule "b" "c" "s"); ("three", mx_rule "c" "d" "d")].
Definition mx_hands : dict rule := [("one", kx_rule "start" "b" "a"); ("two", kx_rule "b" "c" "j")].
Notation mx_init rules := (sim_init 0 (kx_state rules) None).

Theorem overlap : exists O s S, sim_runs O (sim_init 0 s None) S /\ sim_step O S = None /\ ~ one_at_a_time (manual_log S).
Proof.
  exists wx_oracle, (kx_state mx_three), (sim_exec wx_oracle 900 (mx_init mx_three)).
  split; [exact (sim_exec_init wx_oracle 900 (mx_init mx_three))|]. split; [vm_compute; reflexivity|].
  intros H.
  assert (E : manual_log (sim_exec wx_oracle 900 (mx_init mx_three)) =
    [(500%Z, WText "COMMAND: press_key"); (2000%Z, WText "PREPARATION COMPLETE"); (2500%Z, WText "INITIATION COMPLETE");
     (2500%Z, WText "COMMAND: press_key"); (2600%Z, WUnknown); (2600%Z, WText "KEY PRESSED: A"); (3000%Z, WText "PREPARATION COMPLETE");
     (3500%Z, WText "MOVEMENT FINISHED"); (3500%Z, WText "COMMAND: press_key")] ++
    (4000%Z, WText "INITIATION COMPLETE") ::
    [(4000%Z, WText "PREPARATION COMPLETE"); (4100%Z, WUnknown); (4100%Z, WText "KEY PRESSED: S")] ++
    (4500%Z, WText "INITIATION COMPLETE") ::
    [(4600%Z, WUnknown); (4600%Z, WText "KEY PRESSED: D"); (5000%Z, WText "MOVEMENT FINISHED"); (5500%Z, WText "MOVEMENT FINISHED")])
    by (vm_compute; reflexivity).
  destruct (H _ _ _ _ _ E) as (t & X). cbn in X. intuition congruence.
Qed.

(** "a" is pressed with the left hand, "j" with the right hand, both from the home position. *)
Theorem hands_ignored : exists O s S, sim_runs O (sim_init 0 s None) S /\ sim_step O S = None /\
  same_move "J" "A" /\ ~ same_hand "J" "A" /\
  In (2600%Z, WText "KEY PRESSED: A") (manual_log S) /\ In (4000%Z, WText "COMMAND: press_key") (manual_log S) /\
  In (4500%Z, WText "PREPARATION COMPLETE") (manual_log S) /\ In (5100%Z, WText "KEY PRESSED: J") (manual_log S) /\
  forall d, prepares "J" (15 # 100) (Some "A") d -> roundtime ((4000 # 10000) + d) = 5000%Z.
Proof.
  exists wx_oracle, (kx_state mx_hands), (sim_exec wx_oracle 900 (mx_init mx_hands)).
  split; [exact (sim_exec_init wx_oracle 900 (mx_init mx_hands))|]. split; [vm_compute; reflexivity|].
  assert (Sm : same_move "J" "A") by (unfold same_move, home_keys; cbn; intuition congruence).
  assert (Sh : ~ same_hand "J" "A").
  { unfold same_hand, left_keys. cbn. intros [_ X]. assert (Y : False); [|exact Y]. intuition congruence. }
  split; [exact Sm|]. split; [exact Sh|].
  assert (E : manual_log (sim_exec wx_oracle 900 (mx_init mx_hands)) =
    [(500%Z, WText "COMMAND: press_key"); (2000%Z, WText "PREPARATION COMPLETE"); (2500%Z, WText "INITIATION COMPLETE");
     (2600%Z, WUnknown); (2600%Z, WText "KEY PRESSED: A"); (3500%Z, WText "MOVEMENT FINISHED");
     (4000%Z, WText "COMMAND: press_key"); (4500%Z, WText "PREPARATION COMPLETE"); (5000%Z, WText "INITIATION COMPLETE");
     (5100%Z, WUnknown); (5100%Z, WText "KEY PRESSED: J"); (6000%Z, WText "MOVEMENT FINISHED")]) by (vm_compute; reflexivity).
  rewrite E. do 4 (split; [cbn; tauto|]).
  intros d P. inversion P; subst; try contradiction; try reflexivity.
Qed.

(** ** Single requests *)

Lemma mx_asks k : plain_text k -> k <> "" -> is_relational (VStr k) = false -> asks (kx_key k) nobind k.
Proof.
  intros P Ne Rl. split; [apply (NoDup_cons "cmd"); [cbn; intuition congruence|apply NoDup_cons; [auto|apply NoDup_nil]]|]. split; [apply NoDup_nil|].
  split.
  { intros n w [X _]. cbn in X. destruct X as [[= <- <-]|[[= <- <-]|[]]]; (split; [|intros x v _ []]); [reflexivity|exact Rl]. }
  split; [exact P|]. exists (MkVV (VStr k) None [] []). split; [split; [cbn; auto|left; split; discriminate]|].
  intros v Pv. inversion Pv; subst; cbn in *; [discriminate|reflexivity|]. exfalso. match goal with H : blank _ |- _ => inversion H; congruence end.
Qed.
(** After "a", nothing going on. *)
Definition mx_after (k : string) : st := set_mlast 1 (Some (key_of k), 0%Q) (kx_state []).

Lemma mx_runs : exists tr g tr', runs eq (start wx_oracle MRetrieve "manual" 1 (CChunk (kx_key "s")) nobind 1) (mx_after "A") tr (FCont g) /\
  runs eq g (mx_after "A") tr' FDone /\
  events tr' = [MkEv 11000 "manual" (WText "INITIATION COMPLETE"); MkEv 11100 "manual" WUnknown; MkEv 11100 "manual" (WText "KEY PRESSED: S");
                MkEv 12000 "manual" (WText "MOVEMENT FINISHED")].
Proof.
  eexists _, _, _. split; [|split].
  - eapply runs_yield; [reflexivity|reflexivity|]. eapply runs_yield; [reflexivity|reflexivity|]. apply runs_cont. reflexivity.
  - do 4 (eapply runs_yield; [reflexivity|reflexivity|]). apply runs_done. reflexivity.
  - vm_compute. reflexivity.
Qed.
