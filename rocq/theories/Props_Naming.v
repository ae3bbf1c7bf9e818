(** C111: a buffer is used under the name that was given to it. *)
From Verif Require Import Base Chunks DecMem Buffers Model Naming NamingSpec NamingFacts.
Local Open Scope string_scope.
Local Open Scope list_scope.
Local Open Scope nat_scope.

(** A name given to set_goal or set_retrieval stands, in every simulation of the model, for the buffer that the last such call returned.
    Three names are taken by modules, and the names given to visualBuffer come first if there is an environment. *)
Theorem C111_buffers_partial : forall env h w n w' n' bs name, past env h w n -> named_simulation w n env = (w', Ok (n', bs)) ->
  ~ In name ["manual"; "visual"; "visual_location"] -> (env = true -> last_visual name h = None) -> dget bs name = last_set name h.
Proof. exact used_by_name. Qed.
Print Assumptions C111_buffers_partial.
Theorem C111_visual : forall h w n w' n' bs name i, past true h w n -> named_simulation w n true = (w', Ok (n', bs)) -> last_visual name h = Some i -> dget bs name = Some i.
Proof. exact visual_by_name. Qed.
Print Assumptions C111_visual.
(** Every call returns another buffer. *)
Theorem C111_different : forall env h w n, past env h w n -> NoDup (returned h) /\ forall i, In i (returned h) -> i < List.length (bufs w).
Proof. exact all_different. Qed.
Print Assumptions C111_different.
(** The name manual is replaced without a warning. *)
Theorem C111_manual_refuted : exists h w n w' n' bs i, past false h w n /\ named_simulation w n false = (w', Ok (n', bs)) /\ last_set "manual" h = Some i /\ dget bs "manual" <> Some i.
Proof. exact manual_refuted. Qed.
Print Assumptions C111_manual_refuted.

(** model.goal: after model.goal = name it raises ValueError, unless the name is that of the goal buffer that every model has. *)
Theorem C111_setter_refuted : exists h w n n' i, past false h w n /\ named_goal w n "imaginal" 0 = (fst (fst (named_goal w n "imaginal" 0)), n', i) /\
  the_goal n = Ok 0 /\ the_goal n' = Err EValue.
Proof. exact setter_refuted. Qed.
Print Assumptions C111_setter_refuted.
Theorem C111_goal_partial : forall env h w n, past env h w n -> (forall x i, In (SetGoal x i) h -> x = "g") -> exists i, last_goal "g" h = Some i /\ the_goal n = Ok i.
Proof. exact goal_ok. Qed.
Print Assumptions C111_goal_partial.
Theorem C111_goal_error : forall env h w n x i, past env h w n -> In (SetGoal x i) h -> x <> "g" -> the_goal n = Err EValue.
Proof. exact goal_error. Qed.
Print Assumptions C111_goal_error.
Theorem C111_retrieval_partial : forall env h w n, past env h w n -> (forall x i, In (SetRetrieval x i) h -> x = "retrieval") ->
  exists i, last_retrieval "retrieval" h = Some i /\ the_retrieval n = Ok i.
Proof. exact retrieval_ok. Qed.
Print Assumptions C111_retrieval_partial.
Theorem C111_retrieval_error : forall env h w n x i, past env h w n -> In (SetRetrieval x i) h -> x <> "retrieval" -> the_retrieval n = Err EValue.
Proof. exact retrieval_error. Qed.
Print Assumptions C111_retrieval_error.

(** model.goal may be a buffer that no rule can reach; if no other kind of buffer is called g, it is the one that rules call g. *)
Theorem C111_shadow_refuted : exists h w n w' n' bs, past false h w n /\ named_simulation w n false = (w', Ok (n', bs)) /\ the_goal n = Ok 0 /\ forall name, dget bs name <> Some 0.
Proof. exact shadow_refuted. Qed.
Print Assumptions C111_shadow_refuted.
Theorem C111_goal_used_partial : forall env h w n w' n' bs i, past env h w n -> named_simulation w n env = (w', Ok (n', bs)) -> the_goal n = Ok i ->
  last_retrieval "g" h = None -> last_visual "g" h = None -> dget bs "g" = Some i.
Proof. exact goal_used. Qed.
Print Assumptions C111_goal_used_partial.

Example C111_used : exists h w n w' n' bs, past true h w n /\ named_simulation w n true = (w', Ok (n', bs)) /\ In Simulated h /\ ~ In "imaginal" reserved /\ last_visual "imaginal" h = None /\
  dget bs "imaginal" = Some 2 /\ dget bs "what" = Some 3 /\ dget bs "where" = Some 4 /\ dget bs "g" = Some 0 /\ last_retrieval "g" h = None /\ last_visual "g" h = None.
Proof. exact names_used. Qed.
Example C111_goal : exists h w n w' n' bs, past false h w n /\ (forall x i, In (SetGoal x i) h -> x = "g") /\ (forall x i, In (SetRetrieval x i) h -> x = "retrieval") /\
  named_simulation w n false = (w', Ok (n', bs)) /\ the_goal n = Ok 2 /\ the_retrieval n = Ok 1 /\ last_retrieval "g" h = None /\ last_visual "g" h = None /\ dget bs "g" = Some 2.
Proof. exact goal_there. Qed.
