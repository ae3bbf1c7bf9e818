(** Property theorems about production rules: C09, C28 to C32, C44, C45.

    [runs rely (procedural O t0) s tr f]: a run of the procedural process from time [t0], observed
    up to some point, during which the rest of the program changes buffers and modules at will
    whenever the process waits. *)
From Coq Require Import Permutation Lqa.
From Verif Require Import Base BaseFacts Chunks DecMem Buffers Productions ProdSpec ProdFacts ActFacts HarvestFacts CycleFacts LearnFacts SelectFacts ProdWitness.
Local Open Scope string_scope.

(** ** C09 *)

(** Up to the firing of the rule nothing is started and no buffer or module changes; bindings are
    empty, or those of the successful test at firing time of the rule that was selected. *)
Theorem C09_testing_changes_nothing : forall O t0 s tr f,
  runs rely (procedural O t0) s tr f ->
  until_fired (fun h =>
    sw (hafter h) = sw (hbefore h) /\ smods (hafter h) = smods (hbefore h) /\ hstarted h = [] /\
    (svars (hafter h) = nobind \/
     exists r h', In (WSelected r) (map ewhat (events tr)) /\ In h' tr /\ tested_ok r h' /\
       svars (hafter h') = svars (hafter h))) tr.
Proof. exact procedural_before_firing. Qed.
Print Assumptions C09_testing_changes_nothing.

(** [rely] is no more than what the other processes do: whatever they meet, the processes started
    by actions leave the bindings, rules, uses, names and parameters alone in each of their steps. *)
Theorem C09_requests_keep_bindings : forall (R : st -> st -> Prop) O m name i c bs t s tr f,
  runs R (start O m name i c bs t) s tr f -> Forall (fun h => rely (hbefore h) (hafter h)) tr.
Proof. exact start_runs_keep. Qed.
Print Assumptions C09_requests_keep_bindings.

(** A run in which a rule with a variable is selected, tested and fired. *)
Example C09_example : let s := wx_state wx_par [("r", wx_rule)] in let tr := wx_run undisturbed s in
  runs rely (procedural wx_oracle 0) s tr FDone /\
  map ewhat (events tr) = [WConflict; WSelected "r"; WUnknown; WFired "r"; WText "CLEARED"] /\
  map (fun h => dkeys (bpos (svars (hafter h)))) tr = [[]; []; []; ["x"; "g"]; ["x"; "g"]; ["x"; "g"]].
Proof.
  cbv zeta. split; [|split; vm_compute; reflexivity].
  exact (wx_runs undisturbed (wx_state wx_par [("r", wx_rule)]) undisturbed_rely).
Qed.

(** ** C28 *)

(** Full statement: without the hypothesis on the order.  Missing: the order of the rules is
    computed once; after utility learning it is out of date (see the refutation).  Rules have
    non-empty names (the empty name counts as no rule). *)
Theorem C28_best_rule_partial : forall O t0 s tr f h e,
  runs rely (procedural O t0) s tr f -> In h tr -> hevent h = Some e ->
  qsub (sp s) = false \/ qnoise (sp s) == 0 ->
  NoDup (dkeys (srules s)) -> ~ In "" (sorder s) ->
  sorder s = initial_order (srules s) ->
  (forall r, ewhat e = WSelected r -> rule_matches (hbefore h) r /\
     forall m, rule_matches (hbefore h) m -> util (hbefore h) m <= util (hbefore h) r) /\
  (ewhat e = WNoRule -> forall m, ~ rule_matches (hbefore h) m).
Proof.
  intros O t0 s tr f h e Hr Hin He Hq nd Hn Ho. destruct (initial_order_ok s Ho nd) as [H1 H2].
  exact (procedural_selects_best O t0 s tr f h e Hr Hin He Hq H1 H2 Hn).
Qed.
Print Assumptions C28_best_rule_partial.

(** The same for any order that is still the right one, for example when utilities were not changed. *)
Theorem C28_best_rule_right_order_partial : forall O t0 s tr f h e,
  runs rely (procedural O t0) s tr f -> In h tr -> hevent h = Some e ->
  qsub (sp s) = false \/ qnoise (sp s) == 0 ->
  (forall before n after m, sorder s = (before ++ n :: after)%list -> In m after -> util s m <= util s n) ->
  incl (dkeys (srules s)) (sorder s) -> ~ In "" (sorder s) ->
  (forall r, ewhat e = WSelected r -> rule_matches (hbefore h) r /\
     forall m, rule_matches (hbefore h) m -> util (hbefore h) m <= util (hbefore h) r) /\
  (ewhat e = WNoRule -> forall m, ~ rule_matches (hbefore h) m).
Proof. exact procedural_selects_best. Qed.
Print Assumptions C28_best_rule_right_order_partial.

Example C28_example : let s := wx_state wx_learning wx_rules in let tr := wx_run undisturbed s in
  runs rely (procedural wx_oracle 0) s tr FDone /\ NoDup (dkeys (srules s)) /\ ~ In "" (sorder s) /\
  sorder s = initial_order (srules s) /\ sorder s = ["never"; "high"; "low"] /\
  In (WSelected "high") (map ewhat (events tr)).
Proof.
  cbv zeta. split; [exact (wx_runs undisturbed (wx_state wx_learning wx_rules) undisturbed_rely)|].
  split; [repeat constructor; cbn; intuition discriminate|].
  split; [cbn; intuition discriminate|]. split; [reflexivity|]. split; [reflexivity|]. vm_compute. auto.
Qed.

(** The first cycle teaches the rule "high" a low utility; it is selected again although the
    rule "low", which is better now, matches. *)
Theorem C28_best_rule_refuted : exists O s tr tr' h r m,
  sorder s = initial_order (srules s) /\ qnoise (sp s) == 0 /\
  runs rely (procedural O 0) s tr FDone /\
  runs rely (procedural O (5 # 100)) (final s tr) tr' FDone /\
  In h tr' /\ hevent h = Some (MkEv 500 PROCEDURAL (WSelected r)) /\
  rule_matches (hbefore h) m /\ util (hbefore h) r < util (hbefore h) m.
Proof.
  pose (s := wx_state wx_learning wx_rules). pose (tr := wx_run undisturbed s).
  pose (x := exec undisturbed 20 (procedural wx_oracle (5 # 100)) (final s tr)).
  destruct (step_at is_selected (fst x)) as [h|] eqn:E; [|vm_compute in E; discriminate].
  exists wx_oracle, s, tr, (fst x), h, "high", "low".
  split; [reflexivity|]. split; [reflexivity|].
  split. { exact (wx_runs undisturbed s undisturbed_rely). }
  split. { exact (exec_runs rely undisturbed undisturbed_rely 20 (procedural wx_oracle (5 # 100)) (final s tr)). }
  split; [exact (step_at_In _ _ _ E)|].
  vm_compute in E. injection E as <-. split; [reflexivity|]. split; [|reflexivity].
  exists (MkRule (wx_lhs "start") [] 4 None). eexists. split; [reflexivity|]. apply lhs_test_iff. vm_compute. reflexivity.
Qed.
Print Assumptions C28_best_rule_refuted.

(** ** C29 *)

(** Rule number [j] of the order is judged with noise sample number [j]. *)
Theorem C29_best_noisy_rule : forall O t0 s tr f h e r,
  runs rely (procedural O t0) s tr f -> In h tr -> hevent h = Some e -> ewhat e = WSelected r ->
  qsub (sp s) = true -> ~ qnoise (sp s) == 0 ->
  let noise := onoise O (choosing (hbefore h)) in
  rule_matches (hbefore h) r /\
  exists j, nth_error (sorder s) j = Some r /\
    forall k m, nth_error (sorder s) k = Some m -> rule_matches (hbefore h) m ->
      util (hbefore h) m + noise k <= util (hbefore h) r + noise j.
Proof. exact procedural_selects_noisy. Qed.
Print Assumptions C29_best_noisy_rule.

Theorem C29_no_rule_matches : forall O t0 s tr f h e,
  runs rely (procedural O t0) s tr f -> In h tr -> hevent h = Some e -> ewhat e = WNoRule ->
  qsub (sp s) = true -> ~ qnoise (sp s) == 0 ->
  incl (dkeys (srules s)) (sorder s) -> ~ In "" (sorder s) -> forall m, ~ rule_matches (hbefore h) m.
Proof. exact procedural_none_noisy. Qed.
Print Assumptions C29_no_rule_matches.

(** Noise 0, 3 and 6 for "never", "high" and "low": the rule with lower utility wins. *)
Example C29_example : let s := wx_state wx_noise wx_rules in let tr := wx_run undisturbed s in
  runs rely (procedural wx_oracle 0) s tr FDone /\ qsub (sp s) = true /\ ~ qnoise (sp s) == 0 /\
  In (WSelected "low") (map ewhat (events tr)).
Proof.
  cbv zeta. split; [exact (wx_runs undisturbed (wx_state wx_noise wx_rules) undisturbed_rely)|].
  split; [reflexivity|]. split; [discriminate|]. vm_compute. auto.
Qed.

(** ** C30 *)

(** [all]: the keys of the right-hand side by stages; what has been started is an initial part of
    it, and all of it when the right-hand side is done.  [R] is arbitrary. *)
Theorem C30_actions_once_in_order : forall (R : st -> st -> Prop) O rhs t s tr f,
  (forall k, In k (dkeys rhs) -> stage k <> None) ->
  runs R (g_update O rhs t) s tr f ->
  exists all rest, staged (dkeys rhs) all /\ Permutation all (dkeys rhs) /\ all = (started tr ++ rest)%list /\
    (f = FDone -> rest = []) /\ Forall quiet (events tr).
Proof. exact update_runs. Qed.
Print Assumptions C30_actions_once_in_order.

Theorem C30_unknown_sign_changes_nothing : forall O rhs t s,
  (exists k, In k (dkeys rhs) /\ stage k = None) -> (forall k, In k (dkeys rhs) -> k <> "") ->
  resume (g_update O rhs t) s = (s, [], ORaise EActr).
Proof. exact update_bad_sign. Qed.
Print Assumptions C30_unknown_sign_changes_nothing.

Example C30_example : let s := wx_state wx_par [("r", wx_rule)] in
  let rhs := [("~g", CNone); ("+imaginal", CChunk (wx_goal "a")); ("?imaginal", CDict [("attended", "False")]); ("=g", CChunk (wx_goal "b"))] in
  let x := exec undisturbed 20 (g_update wx_oracle rhs 0) s in
  runs rely (g_update wx_oracle rhs 0) s (fst x) FDone /\ (forall k, In k (dkeys rhs) -> stage k <> None) /\
  started (fst x) = ["?imaginal"; "=g"; "+imaginal"; "~g"].
Proof.
  cbv zeta. split.
  { match goal with |- runs _ ?g ?s (fst (exec _ ?n _ _)) _ => exact (exec_runs rely undisturbed undisturbed_rely n g s) end. }
  split; [|vm_compute; reflexivity].
  intros k Hk. cbn in Hk. repeat (destruct Hk as [<-|Hk]; [discriminate|]). destruct Hk.
Qed.

(** ** C31 *)

(** Full statement: without the hypothesis on the names of variables.  Missing: a variable that
    has the name of a buffer makes that buffer be cleared (see the refutation).  [s'] is the state
    in which the left-hand side was tested; the buffers in [l] get a process that clears them, in
    the last step of the right-hand side and nowhere else. *)
Theorem C31_strict_harvesting_partial : forall O lhs rhs t s' s tr,
  conds_hold s' lhs nobind (svars s) -> qstrict (sp s) = true ->
  (forall x, In x (lhs_vars lhs) -> dget (snames s) x = None) ->
  (forall x, dget (snames s) (String "=" x) = None) ->
  runs rely (g_update O rhs t) s tr FDone ->
  exists tr' h l, tr = (tr' ++ [h])%list /\
    Forall (fun h => clears (sprocs (hafter h)) = clears (sprocs (hbefore h))) tr' /\
    clears (sprocs (hafter h)) = (clears (sprocs (hbefore h)) ++ l)%list /\ NoDup l /\
    forall n, In n l <-> dget (snames s) n <> None /\ tested lhs n /\ ~ mentioned rhs n.
Proof. exact harvest_exact. Qed.
Print Assumptions C31_strict_harvesting_partial.

Theorem C31_no_harvesting : forall O lhs rhs t s' s tr,
  conds_hold s' lhs nobind (svars s) -> qstrict (sp s) = false ->
  (forall x, dget (snames s) (String "=" x) = None) ->
  runs rely (g_update O rhs t) s tr FDone ->
  Forall (fun h => clears (sprocs (hafter h)) = clears (sprocs (hbefore h))) tr.
Proof. exact harvest_off. Qed.
Print Assumptions C31_no_harvesting.

(** A rule that tests g and does not mention it. *)
Example C31_example : let s0 := wx_state wx_par [] in
  let lhs := [("=g", CChunk wx_var)] in let rhs := [("+imaginal", CChunk wx_var)] in
  exists s tr, conds_hold s0 lhs nobind (svars s) /\ qstrict (sp s) = true /\
    (forall x, In x (lhs_vars lhs) -> dget (snames s) x = None) /\ (forall x, dget (snames s) (String "=" x) = None) /\
    runs rely (g_update wx_oracle rhs 0) s tr FDone /\ clears (sprocs (final s tr)) = ["g"].
Proof.
  cbv zeta.
  pose (s := set_vars (MkB [("x", VStr "start"); ("g", VChunk (wx_goal "start"))] []) (wx_state wx_par [])).
  exists s, (fst (exec undisturbed 20 (g_update wx_oracle [("+imaginal", CChunk wx_var)] 0) s)).
  split; [apply lhs_test_iff; vm_compute; reflexivity|]. split; [reflexivity|].
  split; [intros x [<-|[]]; reflexivity|]. split; [reflexivity|].
  split; [exact (exec_runs rely undisturbed undisturbed_rely 20 (g_update wx_oracle [("+imaginal", CChunk wx_var)] 0) s)|].
  vm_compute. reflexivity.
Qed.

(** The variable =imaginal makes the buffer imaginal be cleared, which the rule does not test. *)
Theorem C31_strict_harvesting_refuted : exists O s tr n r ru,
  runs rely (procedural O 0) s tr FDone /\ qstrict (sp s) = true /\ In (WFired r) (map ewhat (events tr)) /\
  dget (srules s) r = Some ru /\ ~ tested (rlhs ru) n /\
  clears (sprocs s) = [] /\ In n (clears (sprocs (final s tr))).
Proof.
  pose (s := wx_state wx_par [("r", wx_clash)]).
  exists wx_oracle, s, (wx_run undisturbed s), "imaginal", "r", wx_clash.
  split; [exact (wx_runs undisturbed s undisturbed_rely)|]. split; [reflexivity|]. split; [vm_compute; auto 10|].
  split; [reflexivity|]. split; [cbn; intros [H|[]]; discriminate|]. split; [reflexivity|]. vm_compute. auto.
Qed.
Print Assumptions C31_strict_harvesting_refuted.

(** ** C32 *)

(** Full statement: for rules that fired.  Missing: a rule counts as used when it is selected,
    also if it is stopped later (see the refutation); production compilation is off.  [updated]:
    utility changes as in [learns], the rest of the rule does not change. *)
Theorem C32_utility_learning_partial : forall O t0 s tr f h e r,
  runs rely (procedural O t0) s tr f ->
  qcompile (sp s) = false -> NoDup (dkeys (sused s)) -> In h tr -> hevent h = Some e -> ewhat e = WFired r ->
  exists ru, dget (srules (hbefore h)) r = Some ru /\
  match (if qlearn (sp (hbefore h)) then rreward ru else None) with
  | None => srules (hafter h) = srules (hbefore h) /\ sused (hafter h) = sused (hbefore h)
  | Some reward =>
      sused (hafter h) = [] /\ dkeys (srules (hafter h)) = dkeys (srules (hbefore h)) /\
      forall n a, dget (srules (hbefore h)) n = Some a ->
        exists b, dget (srules (hafter h)) n = Some b /\
          updated (qalpha (sp (hbefore h))) reward (t0 + qfiring (sp s)) (uses (sused (hbefore h)) n) a b
  end.
Proof. exact procedural_learning. Qed.
Print Assumptions C32_utility_learning_partial.

(** The uses are the times of the selections, in order. *)
Theorem C32_uses_recorded : forall O t0 s tr f h e,
  runs rely (procedural O t0) s tr f -> In h tr -> hevent h = Some e ->
  match ewhat e with
  | WSelected r => forall n, uses (sused (hafter h)) n = (uses (sused (hbefore h)) n ++ if String.eqb n r then [t0] else [])%list
  | WFired _ | WCompiled _ _ => True
  | _ => sused (hafter h) = sused (hbefore h)
  end.
Proof. exact procedural_uses. Qed.
Print Assumptions C32_uses_recorded.

Theorem C32_unused_rules_keep_utility : forall alpha reward now u u', learns alpha reward now u [] u' -> u' = u.
Proof. exact learns_unused. Qed.
Print Assumptions C32_unused_rules_keep_utility.

(** Every step of [learns] rounds a value between the old utility and the delayed reward. *)
Theorem C32_no_overshoot : forall alpha reward now u t ts u', 0 <= alpha <= 1 -> learns alpha reward now u (t :: ts) u' ->
  exists x v, rounded x v /\ learns alpha reward now v ts u' /\
    ((u <= x <= reward - (now - t)) \/ (reward - (now - t) <= x <= u)).
Proof. exact learns_between. Qed.
Print Assumptions C32_no_overshoot.

(** Half of the way from 5 to -0.05. *)
Example C32_example : let s := wx_state wx_learning wx_rules in let tr := wx_run undisturbed s in
  runs rely (procedural wx_oracle 0) s tr FDone /\ qcompile (sp s) = false /\ NoDup (dkeys (sused s)) /\
  In (WFired "high") (map ewhat (events tr)) /\ util s "high" = 5%Q /\ util (final s tr) "high" = (24750 # 10000)%Q /\
  util (final s tr) "low" = 4%Q.
Proof.
  cbv zeta. split; [exact (wx_runs undisturbed (wx_state wx_learning wx_rules) undisturbed_rely)|].
  split; [reflexivity|]. split; [constructor|]. split; [vm_compute; auto 10|]. vm_compute. auto.
Qed.

(** The rule "first" never fires, and its utility changes. *)
Theorem C32_utility_learning_refuted : exists O s tr tr' r,
  sused s = [] /\
  runs rely (procedural O 0) s tr FDone /\
  runs rely (procedural O 1) (final s tr) tr' FDone /\
  ~ In (WFired r) (map ewhat (events tr)) /\ ~ In (WFired r) (map ewhat (events tr')) /\
  ~ util (final (final s tr) tr') r == util s r.
Proof.
  pose (s := wx_state wx_learning wx_two). pose (tr := wx_run (wx_change is_selected) s).
  exists wx_oracle, s, tr, (wx_second (final s tr)), "first".
  split; [reflexivity|]. split; [exact (wx_runs (wx_change is_selected) s (wx_change_rely is_selected))|].
  split; [exact (exec_runs rely undisturbed undisturbed_rely 20 (procedural wx_oracle 1) (final s tr))|].
  split; [vm_compute; intuition discriminate|]. split; [vm_compute; intuition discriminate|].
  vm_compute. discriminate.
Qed.
Print Assumptions C32_utility_learning_refuted.

(** ** C44 *)

(** For one run of the procedural process; for the whole simulation see Props_Sim.v.  Its events are
    those of one [cycle], or an initial part: at most one rule is selected, and if one fires it is
    the selected one, exactly the firing time later. *)
Theorem C44_run_of_procedural_process : forall O t0 s tr f,
  runs rely (procedural O t0) s tr f ->
  exists l rest, cycle t0 (qfiring (sp s)) l /\ l = (events tr ++ rest)%list /\ (f = FDone -> rest = []) /\
    forall k, f <> FCont k.
Proof. exact procedural_cycle. Qed.
Print Assumptions C44_run_of_procedural_process.

Example C44_run_example : let s := wx_state wx_par wx_rules in
  runs rely (procedural wx_oracle 0) s (wx_run (wx_change is_selected) s) FDone /\
  map ewhat (events (wx_run (wx_change is_selected) s)) = [WConflict; WSelected "high"; WUnknown; WStopped "high"].
Proof.
  cbv zeta. split; [|vm_compute; reflexivity].
  exact (wx_runs (wx_change is_selected) (wx_state wx_par wx_rules) (wx_change_rely is_selected)).
Qed.

(** ** C45 *)

(** Full statement: the conditions hold when the rule fires, actions included.  Missing: between
    the test and the first action the process waits (for the events RULE FIRED and, if a rule was
    compiled, RULE CREATED), and other processes may change the buffers (see the refutation). *)
Theorem C45_fires_only_if_matching_partial : forall O t0 s tr f h e r,
  runs rely (procedural O t0) s tr f ->
  In h tr -> hevent h = Some e ->
  (ewhat e = WStopped r -> hafter h = hbefore h /\ ~ rule_matches (hbefore h) r) /\
  (ewhat e = WFired r -> exists h', In h' tr /\ tested_ok r h' /\ svars (hafter h) = svars (hafter h') /\
     (h' = h \/ exists again n, hevent h' = Some (MkEv (etime e) PROCEDURAL (WCompiled again n)))).
Proof. exact procedural_fires_tested. Qed.
Print Assumptions C45_fires_only_if_matching_partial.

Example C45_example : let s := wx_state wx_par [("r", wx_rule)] in
  runs rely (procedural wx_oracle 0) s (wx_run undisturbed s) FDone /\
  In (WFired "r") (map ewhat (events (wx_run undisturbed s))).
Proof.
  cbv zeta. split; [|vm_compute; auto 10].
  exact (wx_runs undisturbed (wx_state wx_par [("r", wx_rule)]) undisturbed_rely).
Qed.

(** Another process changes the goal at the moment of firing; the actions run all the same. *)
Theorem C45_actions_run_while_matching_refuted : exists O s tr h r k,
  runs rely (procedural O 0) s tr FDone /\ In (WFired r) (map ewhat (events tr)) /\ In h tr /\
  In k (hstarted h) /\ ~ rule_matches (hbefore h) r.
Proof.
  pose (s := wx_state wx_par [("r", MkRule (wx_lhs "start") [("~g", CNone)] 0 None)]).
  pose (tr := wx_run (wx_change is_firing) s).
  destruct (nth_error tr 4) as [h|] eqn:E; [|vm_compute in E; discriminate].
  exists wx_oracle, s, tr, h, "r", "~g".
  split; [exact (wx_runs (wx_change is_firing) s (wx_change_rely is_firing))|]. split; [vm_compute; auto 10|].
  split; [exact (nth_error_In _ _ E)|].
  vm_compute in E. injection E as <-. split; [now left|].
  intros (ru & b & Hg & Hc). injection Hg as <-. apply lhs_test_iff in Hc. vm_compute in Hc. discriminate.
Qed.
Print Assumptions C45_actions_run_while_matching_refuted.
