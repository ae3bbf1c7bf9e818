(** Production compilation: C49, C50, C51, C76, C77, C79, C80, C81, C82. *)
From Verif Require Import Base BaseFacts Chunks DecMem Buffers Productions ProdSpec ProdWitness Sim SimSpec SimWitness Compile CompileFacts CompileSame CompileQuery CompileWitness CompileTerms CompileFire CompileSound CompileSoundWitness CompileSpec.
Local Open Scope string_scope.
Local Open Scope list_scope.

(** ** C49 *)

(** Full statement: the variables of the second rule are renamed apart from those of the first, or
    ACTRError is raised.  It is false: a variable of the first rule may have the new name, and nothing is
    raised even when all variables of the first rule are known to the check. *)
Theorem C49_refuted : ~ (forall r vs side1 side2 side2', (forall x, occurs x side1 -> In x vs) ->
  with_parts (rename_part r vs) side2 = Ok side2' -> forall y, occurs y side1 -> ~ occurs y side2').
Proof.
  intros H. refine (H "two" ["x"; "y__rule__two"] [("=g", CChunk (task (v_ "x") (v_ "y__rule__two") (c_ "start")))]
    [("=g", CChunk (task (v_ "y") None (c_ "next")))] _ _ eq_refl "y__rule__two" _ _).
  - intros x (code & b & c & n & s & [[= <- <- <-]|[]] & _ & Hs & w & -> & Hw). cbn [cslots task In] in Hs.
    destruct Hs as [[= <- <-]|[[= <- <-]|[[= <- <-]|[]]]]; destruct Hw as [[Hw _]|[]]; try discriminate Hw; injection Hw as <-; cbn; auto.
  - exists "="%char, "g", (task (v_ "x") (v_ "y__rule__two") (c_ "start")), "b", (v_ "y__rule__two").
    split; [left; reflexivity|]. split; [left; reflexivity|]. split; [right; left; reflexivity|]. eexists. split; [reflexivity|]. left. split; [reflexivity|discriminate].
  - exists "="%char, "g", (task (v_ "y__rule__two") (Some (MkVV VNone None [] [])) (c_ "next")), "a", (v_ "y__rule__two").
    split; [left; reflexivity|]. split; [left; reflexivity|]. split; [left; reflexivity|]. eexists. split; [reflexivity|]. left. split; [reflexivity|discriminate].
Qed.
Print Assumptions C49_refuted.

(** The clash makes the compiled rule do something else than its parents: in a state that a simulation
    reaches, it leaves 6 in a slot where they put 5. *)
Theorem C49_capture_refuted : exists S, sim_runs cw_oracle (cw_init capture_rules cw_goal) S /\
  is_compiled capture_rules (ss S) "one and two" = true /\
  (exists s', fires cw_oracle 0 (ss S) "one and two" s' /\ goal_is "5" "6" "done" s' = true) /\
  (exists s1 s2, fires cw_oracle 0 (ss S) "one" s1 /\ fires cw_oracle 0 s1 "two" s2 /\ goal_is "5" "5" "done" s2 = true).
Proof.
  exists (cw_sim capture_rules cw_goal 180). split; [exact (after_one_runs capture_rules)|]. split; [exact (proj1 capture_compiled)|].
  split; [exact capture_fires|exact capture_parents].
Qed.
Print Assumptions C49_capture_refuted.

(** No clash is ever reported. *)
Theorem C49_never_reported : forall r vs side, (forall x y, In x vs -> x <> String "=" y) ->
  with_parts (rename_part r vs) side <> Err EActr.
Proof. exact rename_never_reports. Qed.
Print Assumptions C49_never_reported.

Example C49_never_reported_example : (forall x y, In x ["y__rule__two"] -> x <> String "=" y) /\
  exists side', with_parts (rename_part "two" ["y__rule__two"]) [("=g", CChunk (task (v_ "y") None None))] = Ok side'.
Proof. split; [intros x y [<-|[]]; discriminate|]. eexists. vm_compute. reflexivity. Qed.

(** Missing: rules whose variables are named like x__rule__name. *)
Theorem C49_apart_partial : forall r vs side1 side2 side2',
  (forall x, occurs x side2 -> ~ occurs (x ++ "__rule__" ++ r)%string side1) -> with_parts (rename_part r vs) side2 = Ok side2' ->
  Forall2 (cond_renamed (fun x => (x ++ "__rule__" ++ r)%string)) side2 side2' /\
  forall y, occurs y side1 -> ~ occurs y side2'.
Proof. intros r vs side1 side2 side2' N H. exact (conj (rename_exact r vs side2 side2' H) (rename_apart r vs side1 side2 side2' N H)). Qed.
Print Assumptions C49_apart_partial.

Example C49_apart_example : let side1 := [("=g", CChunk (task (v_ "x") (v_ "y") (c_ "start")))] in
  let side2 := [("=g", CChunk (task (v_ "x") (v_ "z") (c_ "next")))] in
  (forall x, occurs x side2 -> ~ occurs (x ++ "__rule__" ++ "two")%string side1) /\ occurs "x" side1 /\ occurs "x" side2 /\
  exists side2', with_parts (rename_part "two" ["x"; "y"]) side2 = Ok side2'.
Proof.
  cbv zeta.
  assert (D : forall x a b p, occurs x [("=g", CChunk (task (v_ a) (v_ b) (c_ p)))] -> x = a \/ x = b).
  { intros x a b p (code & bf & c & n & s & [[= <- <- <-]|[]] & _ & Hs & w & -> & Hw). cbn [cslots task In] in Hs.
    destruct Hs as [[= <- <-]|[[= <- <-]|[[= <- <-]|[]]]]; destruct Hw as [[Hw _]|[]]; try discriminate Hw; injection Hw as <-; auto. }
  assert (J : forall a b p, a <> "" -> occurs a [("=g", CChunk (task (v_ a) (v_ b) (c_ p)))]).
  { intros a b p Ha. exists "="%char, "g", (task (v_ a) (v_ b) (c_ p)), "a", (v_ a). split; [left; reflexivity|]. split; [left; reflexivity|].
    split; [left; reflexivity|]. eexists. split; [reflexivity|]. left. split; [reflexivity|exact Ha]. }
  split; [intros x Ox O1; destruct (D _ _ _ _ Ox) as [-> | ->]; destruct (D _ _ _ _ O1); discriminate|].
  split; [apply J; discriminate|]. split; [apply J; discriminate|]. eexists. vm_compute. reflexivity.
Qed.

(** ** C50 *)

(** Full statement: a rule compiled in a simulation fires only if its parents would fire one after the
    other, and with the same result. *)
Definition compiled_sound : Prop := forall O tie t t' s env S n1 n2,
  compiles_with O tie -> (forall g, env = Some g -> outside g) -> sim_runs O (sim_init t' s env) S ->
  dmem (srules s) (n1 ++ " and " ++ n2) = false -> dmem (srules (ss S)) (n1 ++ " and " ++ n2) = true ->
  like_parents O t (ss S) n1 n2 (n1 ++ " and " ++ n2)%string.
(** It is false: the second rule tests that two slots have the same value, the compiled rule does not. *)
Theorem C50_refuted : ~ compiled_sound.
Proof.
  intros H. specialize (H cw_oracle _ 0%Q 0%Z (cw_state equal_rules cw_goal) None (cw_sim equal_rules cw_goal 180) "one" "two" cw_compiles
    (fun g E => ltac:(discriminate E)) (after_one_runs equal_rules) eq_refl).
  pose proof equal_compiled as C. unfold is_compiled in C. apply andb_prop in C.
  destruct equal_fires as (s' & F). destruct (H (proj2 C) s' F) as (s1 & s2 & F1 & F2 & _). exact (equal_not s1 s2 F1 F2).
Qed.
Print Assumptions C50_refuted.

(** Guarded: both rules test and modify one buffer and nothing else, with texts and variables, whose names
    are kept apart as [plain_pair] says; the buffer holds a chunk whose slots are all texts.  In any such
    state, with any reading of the recorded values, the compiled rule is sound.
    Missing: rules about several buffers, queries, retrievals, negated values; chunks in slots, unset
    slots; pairs of which the first was itself compiled and leaves slots blank. *)
Theorem C50_plain_pairs_partial : forall ks g T n1 n2 n ru1 ru2 new p1 m1 p2 m2 O tie s vals rs,
  plain_pair ks g T n2 ru1 ru2 p1 m1 p2 m2 -> qcompile (sp s) = true ->
  dget (srules s) n1 = Some ru1 -> dget (srules s) n2 = Some ru2 -> recorded O s n1 vals ->
  compile_rules tie s n1 n2 vals = Ok (Some (n, false, rs)) -> dget rs n = Some new ->
  forall t s0 i d, arena ks g T s0 i d ->
    dget (srules s0) n1 = Some ru1 -> dget (srules s0) n2 = Some ru2 -> dget (srules s0) n = Some new ->
    like_parents O t s0 n1 n2 n.
Proof.
  intros ks g T n1 n2 n ru1 ru2 new p1 m1 p2 m2 O tie s vals rs PP Q R1 R2 Rec C RN t s0 i d A S1 S2 SN.
  exact (compile_sound ks g T n1 n2 n ru1 ru2 new p1 m1 p2 m2 PP O tie s vals rs Q R1 R2 Rec C RN t s0 i d A S1 S2 SN).
Qed.
Print Assumptions C50_plain_pairs_partial.

Example C50_plain_pairs_example :
  plain_pair ["a"; "b"; "phase"] "g" "task" "two" (on copy_p1 copy_m1) (on copy_p2 copy_m2) copy_p1 copy_m1 copy_p2 copy_m2 /\
  recorded cw_oracle copy_state "one" copy_vals /\
  compile_rules (fun _ _ => true) copy_state "one" "two" copy_vals = Ok (Some ("one and two", false, copy_rules ++ [("one and two", copy_new)])) /\
  arena ["a"; "b"; "phase"] "g" "task" copy_after 0%nat copy_goal /\
  (exists s', fires cw_oracle 0 copy_after "one and two" s' /\ goal_is "9" "5" "done" s' = true).
Proof. exact (conj copy_pair (conj copy_recorded (conj copy_compiled (conj copy_arena copy_fires)))). Qed.

(** ** C51 *)

(** Compiling changes no other rule; the compiled rule either is new or says the same as the rule that has
    its name, and then nothing but the utility of that rule changes. *)
Theorem C51_compile : forall tie s n1 n2 vals n again rs, compile_rules tie s n1 n2 vals = Ok (Some (n, again, rs)) ->
  (forall m, m <> n -> dget rs m = dget (srules s) m) /\
  exists new, would_add tie s n1 n2 vals new /\
    ((again = false /\ dget (srules s) n = None /\ dget rs n = Some new) \/
     (again = true /\ exists old u, dget (srules s) n = Some old /\ side_same (rlhs old) (rlhs new) /\ side_same (rrhs old) (rrhs new) /\
        dget rs n = Some (set_util old u))).
Proof. exact compile_safe. Qed.
Print Assumptions C51_compile.

(** From any moment of a simulation to any later one, all rules stay, with their conditions and actions. *)
Theorem C51_rules_kept : forall O tie t s env S1 S2, compiles_with O tie -> (forall g, env = Some g -> outside g) ->
  sim_runs O (sim_init t s env) S1 -> sim_runs O S1 S2 -> rules_kept (srules (ss S1)) (srules (ss S2)).
Proof. exact sim_rules_kept. Qed.
Print Assumptions C51_rules_kept.

Example C51_example : compiles_with cw_oracle (fun _ _ => true) /\
  sim_runs cw_oracle (cw_init loop_rules cw_goal) (cw_sim loop_rules cw_goal 300) /\
  dkeys (srules (ss (cw_sim loop_rules cw_goal 300))) = ["one"; "two"; "three"; "one and two"; "two and three"; "three and one"] /\
  (exists rs, compile_rules (fun _ _ => true) (ss (cw_sim loop_rules cw_goal 300)) "one" "two"
     [("g", SDict [("a", None); ("b", None); ("phase", c_ "next")])] = Ok (Some ("one and two", true, rs))) /\
  (exists rs, compile_rules (fun _ _ => true) (ss (cw_sim loop_rules cw_goal 300)) "one" "two"
     [("g", SDict [("a", c_ "1"); ("b", None); ("phase", c_ "next")])] = Ok (Some ("one and two 1", false, rs))).
Proof.
  split; [exact cw_compiles|]. split; [apply sim_exec_init|]. split; [vm_compute; reflexivity|].
  split; eexists; vm_compute; reflexivity.
Qed.

(** ** C76 *)

(** Full statement: compiling rules never ends a simulation with an exception.  It is false: after a failed
    retrieval, compiling the rule that requested it raises TypeError; so does compiling rules that
    test a buffer for chunks of different types, with KeyError. *)
Theorem C76_refuted : exists S S', sim_runs cw_oracle (cw_init failed_rules cw_goal) S /\ dead S = Some (TExn EType) /\
  sim_runs cw_oracle (cw_init types_rules cw_goal) S' /\ dead S' = Some (TExn EKey).
Proof.
  exists (cw_sim failed_rules cw_goal 300), (cw_sim types_rules cw_goal 180).
  split; [apply sim_exec_init|]. split; [vm_compute; reflexivity|]. split; [apply sim_exec_init|vm_compute; reflexivity].
Qed.
Print Assumptions C76_refuted.
(** The same rules without compilation. *)
Example C76_refuted_example : 
  let quiet := fun S : sim => match dead S with None => true | Some _ => false end in
  let off := fun rules => MkSt (MkPar false 0 (5 # 100) false (1 # 2) true false true) (cw_world cw_goal)
    [("g", 0%nat); ("retrieval", 1%nat); ("visual_location", 2%nat)] [("decmem", 0%nat)] [wx_mod; wx_mod; wx_mod] false [] nobind
    rules (initial_order rules) [] [] 0 [] None cw_vals cw_vals None None (MkScr None []) in
  quiet (sim_exec cw_oracle 400 (sim_init 0 (off failed_rules) None)) = true /\ goal_is "7" "7" "end" (ss (sim_exec cw_oracle 400 (sim_init 0 (off failed_rules) None))) = true /\
  quiet (sim_exec cw_oracle 400 (sim_init 0 (off types_rules) None)) = true /\ goal_is "7" "7" "end" (ss (sim_exec cw_oracle 400 (sim_init 0 (off types_rules) None))) = true.
Proof. cbv zeta. split; [vm_compute; reflexivity|]. split; [vm_compute; reflexivity|]. split; vm_compute; reflexivity. Qed.

(** In general: if what the first rule asked for has been recorded, nothing is in the buffer, and the second
    rule does not test that buffer, then compiling the two rules raises an exception. *)
Theorem C76_failed_retrieval : forall tie s n1 n2 vals ru1 ru2 b d got, dget (srules s) n1 = Some ru1 -> dget (srules s) n2 = Some ru2 ->
  dget vals b = Some (SRet d got) -> typed_lhs (rlhs ru2) -> ~ In (String "=" b) (dkeys (rlhs ru2)) ->
  (forall b' d' got', In (b', SRet d' got') vals -> content_of s b' = []) ->
  (forall b', requests_from (rrhs ru1) b' -> kind_is s b' KRetrieval /\ ~ asks (rlhs ru2) b' [("state", "error")]) ->
  exists e, compile_rules tie s n1 n2 vals = Err e.
Proof. exact untested_retrieval. Qed.
Print Assumptions C76_failed_retrieval.

Example C76_failed_retrieval_example : let s := cw_state failed_rules cw_goal in exists ru1 ru2,
  dget (srules s) "one" = Some ru1 /\ dget (srules s) "two" = Some ru2 /\ typed_lhs (rlhs ru2) /\
  ~ In (String "=" "retrieval") (dkeys (rlhs ru2)) /\ content_of s "retrieval" = [] /\
  (forall b', requests_from (rrhs ru1) b' -> kind_is s b' KRetrieval /\ ~ asks (rlhs ru2) b' [("state", "error")]).
Proof.
  cbv zeta. eexists. eexists. split; [reflexivity|]. split; [reflexivity|]. split.
  { intros k c [[= <- <-]|[[= <- <-]|[]]]; eexists; [left|right]; split; try reflexivity; eauto. }
  split; [cbn; intros [H|[H|[]]]; discriminate|]. split; [reflexivity|].
  intros b' [H|[H|[]]]; [discriminate|]. injection H as <-. split; [exists 1%nat; eexists; split; [reflexivity|]; split; reflexivity|].
  intros [J|[J|[]]]; discriminate.
Qed.

(** Missing: retrievals (see the refutation).  Otherwise nothing but an ACTRError, about values that do not
    fit, can be raised. *)
Theorem C76_only_actr_partial : forall tie s n1 n2 ru1 ru2 vals, typed_lhs (rlhs ru1) -> typed_lhs (rlhs ru2) ->
  typed_rhs (rrhs ru1) -> typed_rhs (rrhs ru2) -> same_slots (rlhs ru1) (rlhs ru2) -> no_retrieval vals ->
  forall e, dget (srules s) n1 = Some ru1 -> dget (srules s) n2 = Some ru2 -> compile_rules tie s n1 n2 vals = Err e -> e = EActr.
Proof. exact compile_only_actr. Qed.
Print Assumptions C76_only_actr_partial.

Example C76_only_actr_example : exists ru1 ru2 vals, typed_lhs (rlhs ru1) /\ typed_lhs (rlhs ru2) /\
  typed_rhs (rrhs ru1) /\ typed_rhs (rrhs ru2) /\ same_slots (rlhs ru1) (rlhs ru2) /\ no_retrieval vals /\
  compile_rules (fun _ _ => true) (cw_state [("one", ru1); ("two", ru2)] cw_goal) "one" "two" vals = Err EActr.
Proof.
  exists (nx "start" "next"), (nx "other" "done"), [("g", SDict [("phase", c_ "next")])].
  split; [intros k c [[= <- <-]|[]]; exists "g"; left; eauto|]. split; [intros k c [[= <- <-]|[]]; exists "g"; left; eauto|].
  split; [intros k c [[= <- <-]|[]]; exists "="%char, "g"; split; [reflexivity|]; left; split; [left; reflexivity|eauto]|].
  split; [intros k c [[= <- <-]|[]]; exists "="%char, "g"; split; [reflexivity|]; left; split; [left; reflexivity|eauto]|].
  split; [intros b c1 c2 [[= <- <-]|[]] [[= <-]|[]]; cbn; intros x Hx; exact Hx|].
  split; [intros b d got [J|[]]; discriminate|vm_compute; reflexivity].
Qed.

(** ** C77 *)

Theorem C77_unsafe_pairs : forall tie s n1 n2 vals x ru1 ru2 b, compile_rules tie s n1 n2 vals = Ok (Some x) ->
  dget (srules s) n1 = Some ru1 -> dget (srules s) n2 = Some ru2 -> requests_from (rrhs ru1) b ->
  (~ kind_is s b KRetrieval -> ~ requests_from (rrhs ru2) b) /\
  (forall k, kind_is s b k -> perceptual k -> ~ In (String "=" b) (dkeys (rlhs ru2))) /\
  (forall k d, kind_is s b k -> perceptual k \/ k = KMotor -> asks (rlhs ru2) b d -> d = [("state", "busy")]) /\
  (kind_is s b KRetrieval -> ~ asks (rlhs ru2) b [("state", "error")]).
Proof. exact compile_unsafe. Qed.
Print Assumptions C77_unsafe_pairs.

(** A rule that searches the screen is compiled with one that does not look at the result. *)
Example C77_example : let s := cw_state search_rules cw_goal in exists ru1 ru2 x,
  compile_rules (fun _ _ => true) s "one" "two" [("g", SDict [("phase", c_ "next")])] = Ok (Some x) /\
  dget (srules s) "one" = Some ru1 /\ dget (srules s) "two" = Some ru2 /\ requests_from (rrhs ru1) "visual_location" /\ kind_is s "visual_location" KLocation.
Proof.
  cbv zeta. eexists. eexists. eexists. split; [vm_compute; reflexivity|]. split; [reflexivity|]. split; [reflexivity|].
  split; [right; right; left; reflexivity|]. exists 2%nat. eexists. split; [reflexivity|]. split; reflexivity.
Qed.

(** ** C79 *)

Theorem C79_retrieval_gone : forall tie s n1 n2 vals n rs ru1 ru2 new b d got, compile_rules tie s n1 n2 vals = Ok (Some (n, false, rs)) ->
  dget (srules s) n1 = Some ru1 -> dget (srules s) n2 = Some ru2 -> dget rs n = Some new ->
  dget vals b = Some (SRet d got) -> (forall b' d' got', In (b', SRet d' got') vals -> b' = b) -> In (String "=" b) (dkeys (rlhs ru2)) ->
  (In (String "=" b) (dkeys (rlhs new)) -> In (String "=" b) (dkeys (rlhs ru1))) /\
  (forall code, In (String code b) (dkeys (rrhs new)) -> In (String code b) (dkeys (rrhs ru2))).
Proof. exact compile_retrieval. Qed.
Print Assumptions C79_retrieval_gone.

(** In a simulation: the rule that was compiled puts the retrieved 9 into the goal; it neither requests nor tests a
    retrieval. *)
Example C79_example : let s := ss (cw_sim retrieve_rules cw_goal 300) in exists new,
  dget (srules s) "one and two" = Some new /\ dkeys (rlhs new) = ["=g"] /\ dkeys (rrhs new) = ["=g"; "~retrieval"] /\
  (exists c, dget (rrhs new) "=g" = Some (CChunk c) /\ slot_value c "b" = VStr "9") /\
  exists rs, compile_rules (fun _ _ => true) (cw_state retrieve_rules cw_goal) "one" "two"
    [("g", SDict [("phase", c_ "next")]); ("retrieval", SRet (cslots (task (c_ "8") None None)) (Some cw_fact))] = Ok (Some ("one and two", false, rs)).
Proof.
  cbv zeta. eexists. split; [vm_compute; reflexivity|]. split; [reflexivity|]. split; [reflexivity|].
  split; [eexists; split; reflexivity|eexists; vm_compute; reflexivity].
Qed.

(** ** C80 *)

(** Full statement: the compiled rule does everything that its parents do: its actions are those of the
    second rule and those of the first on buffers that the second does not act upon (but for the request of a
    retrieval that has been replaced by its result).  It is false: of a search with an extra test only the test is left. *)
Theorem C80_refuted : exists S new, sim_runs cw_oracle (cw_init search_rules cw_goal) S /\
  dget (srules (ss S)) "one and two" = Some new /\ dget search_rules "one and two" = None /\
  dkeys (rrhs new) = ["=g"; "?visual_location"].
Proof. exists (cw_sim search_rules cw_goal 180). eexists. split; [apply sim_exec_init|]. split; [vm_compute; reflexivity|]. split; reflexivity. Qed.
Print Assumptions C80_refuted.

(** Missing: first rules with several actions on one buffer. *)
Theorem C80_actions_partial : forall tie s n1 n2 vals n rs ru1 ru2 new, compile_rules tie s n1 n2 vals = Ok (Some (n, false, rs)) ->
  dget (srules s) n1 = Some ru1 -> dget (srules s) n2 = Some ru2 -> dget rs n = Some new ->
  (forall k, In k (dkeys (rrhs ru2)) -> In k (dkeys (rrhs new))) /\
  (forall k, In k (dkeys (rrhs new)) -> In k (dkeys (rrhs ru2)) \/ In k (dkeys (rrhs ru1))) /\
  (forall b, acts_upon (rrhs ru1) b -> acts_upon (rrhs new) b \/ exists d got, In (b, SRet d got) vals) /\
  (one_each (rrhs ru1) -> forall code b, In (String code b) (dkeys (rrhs ru1)) -> ~ acts_upon (rrhs ru2) b ->
     In (String code b) (dkeys (rrhs new)) \/ exists d got, In (b, SRet d got) vals).
Proof. exact compile_actions. Qed.
Print Assumptions C80_actions_partial.

(** The conditions are those of the two rules, but for the test of what was retrieved. *)
Theorem C80_conditions : forall tie s n1 n2 vals n rs ru1 ru2 new, compile_rules tie s n1 n2 vals = Ok (Some (n, false, rs)) ->
  dget (srules s) n1 = Some ru1 -> dget (srules s) n2 = Some ru2 -> dget rs n = Some new ->
  (forall k, In k (dkeys (rlhs ru1)) -> In k (dkeys (rlhs new))) /\
  (forall k, In k (dkeys (rlhs new)) -> In k (dkeys (rlhs ru1)) \/ In k (dkeys (rlhs ru2))) /\
  (forall b, In (String "=" b) (dkeys (rlhs ru2)) -> In (String "=" b) (dkeys (rlhs new)) \/ exists d got, In (b, SRet d got) vals).
Proof. exact compile_conditions. Qed.
Print Assumptions C80_conditions.

(** Queries of the second rule are kept unless the first rule requests or clears the buffer; queries of the
    first rule are kept unless the second one asks for the same thing. *)
Theorem C80_queries_partial : forall tie s n1 n2 vals n rs ru1 ru2 new, compile_rules tie s n1 n2 vals = Ok (Some (n, false, rs)) ->
  dget (srules s) n1 = Some ru1 -> dget (srules s) n2 = Some ru2 -> dget rs n = Some new ->
  NoDup (dkeys (rlhs ru1)) -> NoDup (dkeys (rlhs ru2)) -> (forall b d, asks (rlhs ru2) b d -> NoDup (dkeys d)) ->
  (forall b d, asks (rlhs ru2) b d ->
     (exists d', asks (rlhs new) b d' /\ forall k v, dget d k = Some v -> dget d' k = Some v) \/
     exists code, In (String code b) (dkeys (rrhs ru1)) /\ code <> "="%char /\ code <> "?"%char) /\
  (forall b d, asks (rlhs ru1) b d ->
     exists d', asks (rlhs new) b d' /\ forall k v, dget d k = Some v -> dget d' k = Some v \/ exists d2, asks (rlhs ru2) b d2 /\ dget d2 k <> None).
Proof. exact compile_queries. Qed.
Print Assumptions C80_queries_partial.

(** The last exception is real: the first rule wants an empty buffer, the second one a full one; the
    compiled rule wants a full one. *)
Theorem C80_query_refuted : exists s ru1 ru2 vals rs new, dget (srules s) "one" = Some ru1 /\ dget (srules s) "two" = Some ru2 /\
  compile_rules (fun _ _ => true) s "one" "two" vals = Ok (Some ("one and two", false, rs)) /\ dget rs "one and two" = Some new /\
  recorded cw_oracle s "one" vals /\
  asks (rlhs ru1) "retrieval" [("buffer", "empty")] /\ asks (rlhs new) "retrieval" [("buffer", "full"); ("state", "free")] /\
  forall d, asks (rlhs new) "retrieval" d -> dget d "buffer" = Some "full".
Proof.
  exists (cw_state query_rules cw_goal). eexists. eexists. exists [("g", SDict [("a", None); ("b", None); ("phase", c_ "next")]); ("retrieval", SNone); ("visual_location", SNone)].
  eexists. eexists. split; [reflexivity|]. split; [reflexivity|]. split; [vm_compute; reflexivity|]. split; [reflexivity|]. split; [exact query_recorded|].
  split; [right; left; reflexivity|]. split; [right; left; reflexivity|]. intros d [E|[E|[]]]; [discriminate|]. injection E as <-. reflexivity.
Qed.
Print Assumptions C80_query_refuted.

Example C80_queries_example : let s := cw_state query_rules cw_goal in
  exists ru1 ru2 rs, dget (srules s) "one" = Some ru1 /\ dget (srules s) "two" = Some ru2 /\
    compile_rules (fun _ _ => true) s "one" "two" [("g", SDict [("phase", c_ "next")])] = Ok (Some ("one and two", false, rs)) /\
    NoDup (dkeys (rlhs ru1)) /\ NoDup (dkeys (rlhs ru2)) /\ asks (rlhs ru1) "retrieval" [("buffer", "empty")] /\
    asks (rlhs ru2) "retrieval" [("state", "free"); ("buffer", "full")] /\ (forall b d, asks (rlhs ru2) b d -> NoDup (dkeys d)).
Proof.
  cbv zeta. do 3 eexists. split; [reflexivity|]. split; [reflexivity|]. split; [vm_compute; reflexivity|].
  split; [repeat constructor; cbn; intuition discriminate|]. split; [repeat constructor; cbn; intuition discriminate|]. split; [right; left; reflexivity|]. split; [right; left; reflexivity|].
  intros b d [E|[E|[]]]; [discriminate|]. injection E as <- <-. repeat constructor; cbn; intuition discriminate.
Qed.

Example C80_example : let s := cw_state [("one", MkRule [("=g", CChunk (task None None (c_ "start")))] [("~retrieval", CNone); ("=g", CChunk (task None None (c_ "next")))] 0 None);
                                         ("two", nx "next" "done")] cw_goal in
  exists ru1 ru2 rs new, dget (srules s) "one" = Some ru1 /\ dget (srules s) "two" = Some ru2 /\ one_each (rrhs ru1) /\
    compile_rules (fun _ _ => true) s "one" "two" [("g", SDict [("phase", c_ "next")])] = Ok (Some ("one and two", false, rs)) /\
    dget rs "one and two" = Some new /\ dkeys (rrhs new) = ["=g"; "~retrieval"].
Proof.
  cbv zeta. do 4 eexists. split; [reflexivity|]. split; [reflexivity|]. split; [repeat constructor; cbn; intuition discriminate|].
  split; [vm_compute; reflexivity|]. split; [reflexivity|reflexivity].
Qed.

(** ** C81 *)

(** Full statement: every rule is considered exactly once when a rule is selected.  It is false: a rule that
    is compiled again is listed again. *)
Theorem C81_refuted : exists S, sim_runs cw_oracle (cw_init loop_rules cw_goal) S /\
  NoDup (sorder (cw_state loop_rules cw_goal)) /\ ~ NoDup (sorder (ss S)) /\ NoDup (dkeys (srules (ss S))).
Proof.
  exists (cw_sim loop_rules cw_goal 300). split; [apply sim_exec_init|]. split; [repeat constructor; cbn; intuition discriminate|].
  assert (E : sorder (ss (cw_sim loop_rules cw_goal 300)) = ["one"; "two"; "three"; "one and two"; "two and three"; "three and one"; "one and two"]) by (vm_compute; reflexivity).
  assert (E2 : dkeys (srules (ss (cw_sim loop_rules cw_goal 300))) = ["one"; "two"; "three"; "one and two"; "two and three"; "three and one"]) by (vm_compute; reflexivity).
  rewrite E, E2. split; [|repeat constructor; cbn; intuition discriminate].
  intros N. do 3 (apply NoDup_cons_iff in N; destruct N as [_ N]). apply NoDup_cons_iff in N. destruct N as [N _]. apply N. cbn. auto.
Qed.
Print Assumptions C81_refuted.

(** Every rule is considered, and nothing else.  Missing: exactly once, with compilation. *)
Theorem C81_ranked_partial : forall O tie t s env S, compiles_with O tie -> (forall g, env = Some g -> outside g) ->
  (forall n, In n (sorder s) <-> In n (dkeys (srules s))) ->
  sim_runs O (sim_init t s env) S -> forall n, In n (sorder (ss S)) <-> In n (dkeys (srules (ss S))).
Proof. exact sim_ranked. Qed.
Print Assumptions C81_ranked_partial.
Theorem C81_order_partial : forall O t s env S, qcompile (sp s) = false -> (forall g, env = Some g -> outside g) ->
  sim_runs O (sim_init t s env) S -> sorder (ss S) = sorder s.
Proof. exact sim_order_kept. Qed.
Print Assumptions C81_order_partial.

Example C81_example : (forall n, In n (sorder (cw_state loop_rules cw_goal)) <-> In n (dkeys loop_rules)) /\
  sim_runs cw_oracle (cw_init loop_rules cw_goal) (cw_sim loop_rules cw_goal 250) /\
  sorder (ss (cw_sim loop_rules cw_goal 250)) = ["one"; "two"; "three"; "one and two"; "two and three"; "three and one"].
Proof. split; [intros n; reflexivity|]. split; [apply sim_exec_init|vm_compute; reflexivity]. Qed.

(** ** C82 *)

(** Full statement: a rule compiled in a simulation can replace its parents: where they fire one after the
    other, it fires with the same result. *)
Definition compiled_complete : Prop := forall O tie t t' s env S n1 n2,
  compiles_with O tie -> (forall g, env = Some g -> outside g) -> sim_runs O (sim_init t' s env) S ->
  dmem (srules s) (n1 ++ " and " ++ n2) = false -> dmem (srules (ss S)) (n1 ++ " and " ++ n2) = true ->
  serves_for O t (ss S) n1 n2 (n1 ++ " and " ++ n2)%string.
(** It is false: a slot that the first rule sets and the second one tests is tested by the compiled rule
    before it is set. *)
Theorem C82_refuted : ~ compiled_complete.
Proof.
  intros H. specialize (H cw_oracle _ 0%Q 0%Z (cw_state set_test_rules cw_goal) None (cw_sim set_test_rules cw_goal 180) "one" "two" cw_compiles
    (fun g E => ltac:(discriminate E)) (after_one_runs set_test_rules) eq_refl).
  pose proof (proj1 set_test_compiled) as C. unfold is_compiled in C. apply andb_prop in C.
  exact (set_test_not (H (proj2 C))).
Qed.
Print Assumptions C82_refuted.
(** Another reason: what the first rule tests is copied into the actions, where a negation is not allowed. *)
Theorem C82_negation_refuted : exists S, sim_runs cw_oracle (cw_init negation_rules cw_goal) S /\
  is_compiled negation_rules (ss S) "one and two" = true /\ goal_is "7" "7" "start" (ss S) = true /\
  ~ serves_for cw_oracle 0 (ss S) "one" "two" "one and two".
Proof.
  exists (cw_sim negation_rules cw_goal 180). split; [exact (after_one_runs negation_rules)|].
  split; [exact (proj1 negation_compiled)|]. split; [exact (proj2 negation_compiled)|exact negation_not].
Qed.
Print Assumptions C82_negation_refuted.

(** Guarded as C50, and moreover the first rule tests whatever it sets and the second one tests. *)
Theorem C82_plain_pairs_partial : forall ks g T n1 n2 n ru1 ru2 new p1 m1 p2 m2 O tie s vals rs,
  plain_pair ks g T n2 ru1 ru2 p1 m1 p2 m2 -> qcompile (sp s) = true ->
  dget (srules s) n1 = Some ru1 -> dget (srules s) n2 = Some ru2 -> recorded O s n1 vals ->
  compile_rules tie s n1 n2 vals = Ok (Some (n, false, rs)) -> dget rs n = Some new ->
  (forall k, at_ m1 k <> TBlank -> at_ p2 k <> TBlank -> at_ p1 k <> TBlank) ->
  forall t s0 i d, arena ks g T s0 i d ->
    dget (srules s0) n1 = Some ru1 -> dget (srules s0) n2 = Some ru2 -> dget (srules s0) n = Some new ->
    serves_for O t s0 n1 n2 n.
Proof.
  intros ks g T n1 n2 n ru1 ru2 new p1 m1 p2 m2 O tie s vals rs PP Q R1 R2 Rec C RN Te t s0 i d A S1 S2 SN.
  exact (compile_complete ks g T n1 n2 n ru1 ru2 new p1 m1 p2 m2 PP O tie s vals rs Q R1 R2 Rec C RN t s0 i d A S1 S2 SN Te).
Qed.
Print Assumptions C82_plain_pairs_partial.

(** C50_plain_pairs_example, and the further condition. *)
Example C82_plain_pairs_example : (forall k, at_ copy_m1 k <> TBlank -> at_ copy_p2 k <> TBlank -> at_ copy_p1 k <> TBlank) /\
  exists s1 s2, fires cw_oracle 0 copy_after "one" s1 /\ fires cw_oracle 0 s1 "two" s2 /\ goal_is "9" "5" "done" s2 = true.
Proof. split; [|exact copy_parents]. intros k. unfold copy_m1, copy_p2, copy_p1. at_cases k; cbn; congruence. Qed.
