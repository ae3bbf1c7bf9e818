(** Rules that are compiled in simulations, for the examples and counterexamples about compilation. *)
From Verif Require Import Base BaseFacts Chunks DecMem DecMemFacts Buffers Productions ProdSpec ProdFacts ProdWitness Sim SimWitness Compile CompileSpec CompileFacts.
Local Open Scope string_scope.

(** ** Running a rule *)

Fixpoint finish (fuel : nat) (g : gen) (s : st) : option (option st) :=
  match fuel with
  | O => None
  | S fuel' => match resume g s with
               | (s', _, ODone) => Some (Some s')
               | (s', _, OYield _ k) => finish fuel' k s'
               | _ => Some None
               end
  end.
Lemma finish_spec fuel : forall g s x, finish fuel g s = Some x -> forall s', completes g s s' <-> x = Some s'.
Proof.
  induction fuel as [|fuel IH]; intros g s x H s'; cbn [finish] in H; [discriminate|].
  destruct (resume g s) as [[s1 ns] o] eqn:E. split.
  - intros C. inversion C as [g0 s0 s2 ns2 R|g0 s0 s2 ns2 e k s3 R C2]; subst; rewrite E in R; injection R as -> -> ->; [congruence|].
    exact (proj1 (IH _ _ _ H s') C2).
  - destruct o as [|e|e k|k]; [injection H as <-|injection H as <-; discriminate| |injection H as <-; discriminate].
    + intros [= ->]. exact (completes_done _ _ _ _ E).
    + intros X. exact (completes_yield _ _ _ _ _ _ _ E (proj2 (IH _ _ _ H s') X)).
Qed.
Definition fire (fuel : nat) (O : oracle) (t : Q) (s : st) (r : string) : option (option st) :=
  match dget (srules s) r with
  | None => Some None
  | Some ru => match lhs_test s (rlhs ru) nobind with
               | Ok (Some b) => finish fuel (g_update O (rrhs ru) t) (set_vars b (set_rule (Some r) s))
               | _ => Some None
               end
  end.
Lemma fire_spec fuel O t s r x : fire fuel O t s r = Some x -> forall s', fires O t s r s' <-> x = Some s'.
Proof.
  unfold fire, fires. destruct (dget (srules s) r) as [ru|].
  2:{ intros [= <-] s'. split; [intros (ru & b & H & _)|]; discriminate. }
  destruct (lhs_test s (rlhs ru) nobind) as [[b|]|e] eqn:L.
  - intros H s'. rewrite <- (finish_spec _ _ _ _ H). split.
    + intros (ru' & b' & [= <-] & C & K). apply lhs_test_iff in C. rewrite L in C. injection C as <-. exact K.
    + intros K. exists ru, b. split; [reflexivity|]. split; [apply lhs_test_iff; exact L|exact K].
  - intros [= <-] s'. split; [|discriminate]. intros (ru' & b' & [= <-] & C & K). apply lhs_test_iff in C. congruence.
  - intros [= <-] s'. split; [|discriminate]. intros (ru' & b' & [= <-] & C & K). apply lhs_test_iff in C. congruence.
Qed.

(** ** A model *)

Definition cw_oracle : oracle :=
  MkOr (onoise vx_oracle) (oretr vx_oracle) (oexec vx_oracle) (ofind vx_oracle) (oshift vx_oracle)
    (compile_rules (fun _ _ => true)) (oauto vx_oracle) (oautobuf vx_oracle).
Lemma cw_compiles : compiles_with cw_oracle (fun _ _ => true).
Proof. intros s n1 n2 vals. reflexivity. Qed.
Definition cw_reg : registry := match chunktype init_registry "task" (FString "a, b, phase") [] [] with Ok r => r | _ => [] end.
Definition c_ (v : string) : slotval := plain (VStr v).
Definition v_ (x : string) : slotval := Some (MkVV VNone (Some x) [] []).
Definition task (a b p : slotval) : chunk := MkChunk "task" [("a", a); ("b", b); ("phase", p)].
Definition cw_fact : chunk := task (c_ "8") (c_ "9") (c_ "fact").
Definition cw_world (d : chunk) : world :=
  MkW [add_run [(cw_fact, 0)]] [wx_buf [d]; MkBuf KRetrieval [] (Some 0%nat) 0 [] [] None 0; MkBuf KLocation [] (Some 0%nat) 0 [] [] None 0] cw_reg.
Definition cw_par : params := MkPar false 0 (5 # 100) false (1 # 2) true true true.
Definition cw_vals : dict slotinfo := [("g", SNone); ("retrieval", SNone); ("visual_location", SNone)].
Definition cw_state (rules : dict rule) (d : chunk) : st :=
  MkSt cw_par (cw_world d) [("g", 0%nat); ("retrieval", 1%nat); ("visual_location", 2%nat)] [("decmem", 0%nat)] [wx_mod; wx_mod; wx_mod] false [] nobind
    rules (initial_order rules) [] [] 0 [] None cw_vals cw_vals None None (MkScr None []).
Definition on (p m : chunk) : rule := MkRule [("=g", CChunk p)] [("=g", CChunk m)] 0 None.
Notation cw_init rules d := (sim_init 0 (cw_state rules d) None).
Definition cw_sim (rules : dict rule) (d : chunk) (n : nat) : sim := sim_exec cw_oracle n (cw_init rules d).
Definition goal_of (s : st) : option (slotval * slotval * slotval) :=
  match content_of s "g" with
  | [c] => match cslots c with [(_, a); (_, b); (_, p)] => Some (a, b, p) | _ => None end
  | _ => None
  end.

(** *** Rules *)

Definition nx (p q : string) : rule := on (task None None (c_ p)) (task None None (c_ q)).
Definition cw_goal : chunk := task (c_ "7") (c_ "7") (c_ "start").
(** The second rule tests whether two slots have the same value; the first one does not. *)
Definition equal_rules : dict rule :=
  [("one", on (task (v_ "u") (v_ "v") (c_ "start")) (task None None (c_ "next")));
   ("two", on (task (v_ "y") (v_ "y") (c_ "next")) (task None None (c_ "same")));
   ("three", on (task None None (c_ "same")) (task (c_ "1") (c_ "2") (c_ "start")))].
(** A variable of the first rule has the name that a variable of the second one gets. *)
Definition capture_rules : dict rule :=
  [("one", on (task (v_ "x") (v_ "y__rule__two") (c_ "start")) (task None None (c_ "next")));
   ("two", on (task (v_ "y") None (c_ "next")) (task None (v_ "y") (c_ "done")));
   ("three", on (task None None (c_ "done")) (task (c_ "5") (c_ "6") (c_ "start")))].
(** The second rule deals with a retrieval that failed. *)
Definition failed_rules : dict rule :=
  [("one", MkRule [("=g", CChunk (task None None (c_ "start")))]
             [("=g", CChunk (task None None (c_ "next"))); ("+retrieval", CChunk (task (c_ "6") None None))] 0 None);
   ("two", MkRule [("=g", CChunk (task None None (c_ "next"))); ("?retrieval", CDict [("state", "error"); ("buffer", "empty")])]
             [("=g", CChunk (task None None (c_ "failed")))] 0 None);
   ("three", nx "failed" "end")].
(** The first rule searches the screen, with an extra test. *)
Definition search_rules : dict rule :=
  [("one", MkRule [("=g", CChunk (task None None (c_ "start")))]
             [("=g", CChunk (task None None (c_ "next"))); ("?visual_location", CDict [("attended", "False")]);
              ("+visual_location", CChunk (task (c_ "8") None None))] 0 None);
   ("two", nx "next" "done"); ("three", nx "done" "end")].
(** A loop. *)
Definition loop_rules : dict rule := [("one", nx "start" "next"); ("two", nx "next" "done"); ("three", nx "done" "start")].
(** The second rule tests a slot that the first one has set. *)
Definition set_test_rules : dict rule :=
  [("one", on (task None None (c_ "start")) (task (c_ "5") None (c_ "next")));
   ("two", on (task (c_ "5") None (c_ "next")) (task None None (c_ "done")));
   ("three", on (task None None (c_ "done")) (task (c_ "7") None (c_ "start")))].
(** The first rule tests that a slot does not have a value. *)
Definition negation_rules : dict rule :=
  [("one", on (task (Some (MkVV VNone None [VStr "8"] [])) None (c_ "start")) (task None None (c_ "next")));
   ("two", nx "next" "done"); ("three", nx "done" "start")].
(** The two rules test the same buffer for chunks of different types. *)
Definition types_rules : dict rule :=
  [("one", nx "start" "next");
   ("two", on (MkChunk "note" [("phase", c_ "next"); ("text", None)]) (task None None (c_ "done")));
   ("three", nx "done" "end")].
(** A retrieval that succeeds and is used by the second rule. *)
Definition retrieve_rules : dict rule :=
  [("one", MkRule [("=g", CChunk (task None None (c_ "start")))]
             [("=g", CChunk (task None None (c_ "next"))); ("+retrieval", CChunk (task (c_ "8") None None))] 0 None);
   ("two", MkRule [("=g", CChunk (task None None (c_ "next"))); ("=retrieval", CChunk (task (c_ "8") (v_ "x") None))]
             [("=g", CChunk (task None (v_ "x") (c_ "done"))); ("~retrieval", CNone)] 0 None);
   ("three", nx "done" "end")].

(** Both rules ask about the same buffer. *)
Definition query_rules : dict rule :=
  [("one", MkRule [("=g", CChunk (task None None (c_ "start"))); ("?retrieval", CDict [("buffer", "empty")])]
             [("=g", CChunk (task None None (c_ "next")))] 0 None);
   ("two", MkRule [("=g", CChunk (task None None (c_ "next"))); ("?retrieval", CDict [("state", "free"); ("buffer", "full")])]
             [("=g", CChunk (task None None (c_ "done")))] 0 None)].

(** ** What is computed about firing *)

Lemma fires_if fuel O t s r (p : st -> bool) : match fire fuel O t s r with Some (Some s') => p s' | _ => false end = true ->
  exists s', fires O t s r s' /\ p s' = true /\ forall s'', fires O t s r s'' -> s'' = s'.
Proof.
  destruct (fire fuel O t s r) as [[s'|]|] eqn:E; intros H; try discriminate. exists s'. split; [apply (fire_spec _ _ _ _ _ _ E); reflexivity|].
  split; [exact H|]. intros s'' F. apply (fire_spec _ _ _ _ _ _ E) in F. congruence.
Qed.
Lemma fires_not fuel O t s r : match fire fuel O t s r with Some None => true | _ => false end = true -> forall s', ~ fires O t s r s'.
Proof. destruct (fire fuel O t s r) as [[s'|]|] eqn:E; intros H; try discriminate. intros s' F. apply (fire_spec _ _ _ _ _ _ E) in F. discriminate. Qed.
(** The values in the goal. *)
Definition str_of (v : value) : string := match v with VStr x => x | _ => "" end.
Definition goal_is (a b p : string) (s : st) : bool :=
  match goal_of s with
  | Some (Some x, Some y, Some z) => String.eqb (str_of (vvals x)) a && String.eqb (str_of (vvals y)) b && String.eqb (str_of (vvals z)) p
  | _ => false
  end.

Definition is_compiled (rules : dict rule) (s : st) (n : string) : bool :=
  negb (dmem rules n) && dmem (srules s) n.
(** The state of the simulation when it has gone through the three rules once. *)
Notation after_one rules := (ss (cw_sim rules cw_goal 180)).
Lemma after_one_runs rules : sim_runs cw_oracle (cw_init rules cw_goal) (cw_sim rules cw_goal 180).
Proof. apply sim_exec_init. Qed.

Lemma equal_fires : exists s', fires cw_oracle 0 (after_one equal_rules) "one and two" s'.
Proof. destruct (fires_if 60 cw_oracle 0 (after_one equal_rules) "one and two" (fun _ => true)) as (s' & F & _); [vm_compute; reflexivity|eauto]. Qed.
Lemma equal_not s1 s2 : fires cw_oracle 0 (after_one equal_rules) "one" s1 -> ~ fires cw_oracle 0 s1 "two" s2.
Proof.
  intros F. destruct (fires_if 60 cw_oracle 0 (after_one equal_rules) "one"
    (fun s1 => match fire 60 cw_oracle 0 s1 "two" with Some None => true | _ => false end)) as (s' & _ & P & U); [vm_compute; reflexivity|].
  rewrite (U _ F). exact (fires_not _ _ _ _ _ P s2).
Qed.
Lemma equal_compiled : is_compiled equal_rules (after_one equal_rules) "one and two" = true.
Proof. vm_compute. reflexivity. Qed.

(** The captured variable: the compiled rule copies another slot. *)
Lemma capture_compiled : is_compiled capture_rules (after_one capture_rules) "one and two" = true /\ goal_is "5" "6" "start" (after_one capture_rules) = true.
Proof. split; vm_compute; reflexivity. Qed.
Lemma capture_fires : exists s', fires cw_oracle 0 (after_one capture_rules) "one and two" s' /\ goal_is "5" "6" "done" s' = true.
Proof. destruct (fires_if 60 cw_oracle 0 (after_one capture_rules) "one and two" (goal_is "5" "6" "done")) as (s' & F & P & _); [vm_compute; reflexivity|eauto]. Qed.
Lemma capture_parents : exists s1 s2, fires cw_oracle 0 (after_one capture_rules) "one" s1 /\ fires cw_oracle 0 s1 "two" s2 /\ goal_is "5" "5" "done" s2 = true.
Proof.
  destruct (fires_if 60 cw_oracle 0 (after_one capture_rules) "one"
    (fun s1 => match fire 60 cw_oracle 0 s1 "two" with Some (Some s2) => goal_is "5" "5" "done" s2 | _ => false end)) as (s1 & F1 & P & _); [vm_compute; reflexivity|].
  destruct (fires_if _ _ _ _ _ _ P) as (s2 & F2 & P2 & _). eauto.
Qed.

(** The parents of the compiled rule fire, the compiled rule does not. *)
Lemma not_for rules : match fire 60 cw_oracle 0 (after_one rules) "one" with
                      | Some (Some s1) => match fire 60 cw_oracle 0 s1 "two" with Some (Some _) => true | _ => false end
                      | _ => false
                      end = true ->
  match fire 60 cw_oracle 0 (after_one rules) "one and two" with Some None => true | _ => false end = true ->
  ~ serves_for cw_oracle 0 (after_one rules) "one" "two" "one and two".
Proof.
  intros A B V. destruct (fires_if 60 cw_oracle 0 (after_one rules) "one"
    (fun s1 => match fire 60 cw_oracle 0 s1 "two" with Some (Some _) => true | _ => false end) A) as (s1 & F1 & P & _).
  destruct (fires_if 60 cw_oracle 0 s1 "two" (fun _ => true) P) as (s2 & F2 & _).
  destruct (V s1 s2 F1 F2) as (s' & F & _). exact (fires_not 60 cw_oracle 0 (after_one rules) "one and two" B s' F).
Qed.
Lemma set_test_compiled : is_compiled set_test_rules (after_one set_test_rules) "one and two" = true /\ goal_is "7" "7" "start" (after_one set_test_rules) = true.
Proof. split; vm_compute; reflexivity. Qed.
Lemma set_test_not : ~ serves_for cw_oracle 0 (after_one set_test_rules) "one" "two" "one and two".
Proof. apply not_for; vm_compute; reflexivity. Qed.
Lemma negation_compiled : is_compiled negation_rules (after_one negation_rules) "one and two" = true /\ goal_is "7" "7" "start" (after_one negation_rules) = true.
Proof. split; vm_compute; reflexivity. Qed.
Lemma negation_not : ~ serves_for cw_oracle 0 (after_one negation_rules) "one" "two" "one and two".
Proof. apply not_for; vm_compute; reflexivity. Qed.
Lemma query_recorded : recorded cw_oracle (cw_state query_rules cw_goal) "one"
  [("g", SDict [("a", None); ("b", None); ("phase", c_ "next")]); ("retrieval", SNone); ("visual_location", SNone)].
Proof.
  destruct (fire 60 cw_oracle 0 (cw_state query_rules cw_goal) "one") as [[s1|]|] eqn:E; [|vm_compute in E; discriminate|vm_compute in E; discriminate].
  exists 0%Q, (cw_state query_rules cw_goal), s1. split; [reflexivity|]. split; [reflexivity|]. split; [reflexivity|]. split; [reflexivity|].
  split; [apply (fire_spec _ _ _ _ _ _ E); reflexivity|]. vm_compute in E. injection E as <-. reflexivity.
Qed.
