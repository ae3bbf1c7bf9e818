(** Property theorems about chunks: C01 to C08. *)
From Verif Require Import Chunks ChunkSpec ChunkFacts ChunkMatch ChunkGround ChunkWitness.
Local Open Scope string_scope.

(** ** C01 *)

(** Two chunks with constant slots are == exactly when they have the same content. *)
Theorem C01_fact_equality_extensional : forall c d,
  wf_chunk c -> wf_chunk d -> fact c -> fact d ->
  (chunk_eqb nobind c d = true <-> same_fact c d).
Proof. exact fact_eq_extensional. Qed.
Print Assumptions C01_fact_equality_extensional.

Example C01_example : wf_chunk ex_fact /\ wf_chunk ex_fact' /\ fact ex_fact /\ fact ex_fact' /\
  chunk_eqb nobind ex_fact ex_fact' = true /\ chunk_eqb nobind ex_fact ex_big = false.
Proof. repeat split; wf_tac. Qed.

(** ** C02 *)

Theorem C02_equality_is_equivalence :
  (forall c, chunk_eqb nobind c c = true) /\
  (forall c d, chunk_eqb nobind c d = chunk_eqb nobind d c) /\
  (forall c d e, chunk_eqb nobind c d = true -> chunk_eqb nobind d e = true -> chunk_eqb nobind c e = true).
Proof. exact (conj chunk_eqb_refl (conj chunk_eqb_sym chunk_eqb_trans)). Qed.
Print Assumptions C02_equality_is_equivalence.

(** Chunks whose slots agree up to replacing values by equal chunks are equal. *)
Theorem C02_equality_is_congruence : forall c d,
  Forall2 eq_slots (cslots c) (cslots d) -> chunk_eqb nobind c d = true.
Proof. exact (fun c d F => proj2 (chunk_eqb_sig nobind c d) (eqb_congruence nobind c d F)). Qed.
Print Assumptions C02_equality_is_congruence.

Example C02_example :
  let c := MkChunk "g" [("a", Some (MkVV (VChunk ex_obj) (Some "x") [VChunk ex_obj] ["y"]))] in
  let d := MkChunk "h" [("a", Some (MkVV (VChunk ex_obj') (Some "x") [VChunk ex_obj'] ["y"]))] in
  Forall2 eq_slots (cslots c) (cslots d) /\ c <> d.
Proof.
  split; [|discriminate]. constructor; [|constructor]. split; [reflexivity|].
  assert (E : eq_value (VChunk ex_obj) (VChunk ex_obj')) by (right; exists ex_obj, ex_obj'; auto).
  simpl. auto.
Qed.

(** ** C03 *)

Theorem C03_constant_pattern_matching : forall b c d,
  wf_chunk c -> const_pattern c -> no_variables c -> wf_chunk d -> fact d ->
  fst (chunk_le b c d) = b /\
  (snd (chunk_le b c d) = true <->
     (fact c /\ same_fact c d) \/
     (forall n w, In (n, Some w) (cslots c) ->
        (~ asks_nothing (vvals w) -> has_required d n (vvals w)) /\
        (forall v, In v (vnegvals w) -> ~ has_forbidden d n v))).
Proof. exact const_le_spec. Qed.
Print Assumptions C03_constant_pattern_matching.

Theorem C03_constant_pattern_proper_part : forall b c d,
  wf_chunk c -> const_pattern c -> no_variables c -> wf_chunk d -> fact d ->
  fst (chunk_lt b c d) = b /\
  (snd (chunk_lt b c d) = true <->
     ~ (fact c /\ same_fact c d) /\
     (forall n w, In (n, Some w) (cslots c) ->
        (~ asks_nothing (vvals w) -> has_required d n (vvals w)) /\
        (forall v, In v (vnegvals w) -> ~ has_forbidden d n v))).
Proof. exact const_lt_spec. Qed.
Print Assumptions C03_constant_pattern_proper_part.

Example C03_example : wf_chunk ex_pat /\ const_pattern ex_pat /\ no_variables ex_pat /\
  wf_chunk ex_big /\ fact ex_big /\ snd (chunk_le nobind ex_pat ex_big) = true /\
  snd (chunk_le nobind ex_pat ex_obj) = false /\ snd (chunk_lt nobind ex_pat ex_big) = true.
Proof. repeat split; wf_tac. Qed.

(** ** C04 *)

(** On facts whose written slots hold non-empty constants, <= says that everything the first
    chunk holds is held by the second; it is reflexive, transitive and antisymmetric. *)
Theorem C04_order_on_facts :
  (forall b c d, wf_chunk c -> proper_fact c -> wf_chunk d -> fact d ->
     (snd (chunk_le b c d) = true <-> subsumes c d)) /\
  (forall b c, wf_chunk c -> proper_fact c -> snd (chunk_le b c c) = true) /\
  (forall b c d e, wf_chunk c -> proper_fact c -> wf_chunk d -> proper_fact d -> wf_chunk e -> fact e ->
     snd (chunk_le b c d) = true -> snd (chunk_le b d e) = true -> snd (chunk_le b c e) = true) /\
  (forall b c d, wf_chunk c -> proper_fact c -> wf_chunk d -> proper_fact d ->
     snd (chunk_le b c d) = true -> snd (chunk_le b d c) = true -> chunk_eqb nobind c d = true).
Proof. exact le_partial_order. Qed.
Print Assumptions C04_order_on_facts.

Example C04_example : wf_chunk ex_small /\ proper_fact ex_small /\ proper_fact ex_fact /\
  snd (chunk_le nobind ex_small ex_fact) = true /\ snd (chunk_le nobind ex_fact ex_small) = false.
Proof.
  assert (P : forall w, w = VChunk ex_obj \/ w = VStr "5" -> ~ is_empty w /\ ~ asks_nothing w).
  { intros w [->| ->]; split; intros H; inversion H. }
  repeat split; wf_tac; try (apply P; auto).
Qed.

(** With an explicit 'None' transitivity fails. *)
Theorem C04_explicit_none_refuted : exists c d e,
  wf_chunk c /\ fact c /\ wf_chunk d /\ fact d /\ wf_chunk e /\ fact e /\
  snd (chunk_le nobind c d) = true /\ snd (chunk_le nobind d e) = true /\ snd (chunk_le nobind c e) = false.
Proof. exact none_not_transitive. Qed.
Print Assumptions C04_explicit_none_refuted.

(** ** C05 *)

(** Equal patterns (also with variables and negations) behave alike against every chunk and
    under all bindings, if no slot of theirs demands 'None' or is the empty string or an
    empty chunk. *)
Theorem C05_equal_patterns_match_alike_partial : forall c c',
  wf_chunk c -> wf_chunk c' -> explicit_pattern c -> explicit_pattern c' ->
  chunk_eqb nobind c c' = true ->
  forall b d, chunk_le b c d = chunk_le b c' d.
Proof. exact equal_patterns_match_alike. Qed.
Print Assumptions C05_equal_patterns_match_alike_partial.

(** The full statement (without [explicit_pattern]) is false. *)
Theorem C05_equal_patterns_refuted : exists c c' d,
  wf_chunk c /\ wf_chunk c' /\ wf_chunk d /\ fact c /\ fact c' /\ fact d /\
  chunk_eqb nobind c c' = true /\ snd (chunk_le nobind c d) <> snd (chunk_le nobind c' d).
Proof. exact none_not_interchangeable. Qed.
Print Assumptions C05_equal_patterns_refuted.

Example C05_example :
  let c := MkChunk "g" [("a", Some (MkVV (VChunk ex_obj) (Some "x") [VChunk ex_obj] ["y"])); ("b", None)] in
  let d := MkChunk "h" [("a", Some (MkVV (VChunk ex_obj') (Some "x") [VChunk ex_obj'] ["y"]))] in
  wf_chunk c /\ wf_chunk d /\ explicit_pattern c /\ explicit_pattern d /\ chunk_eqb nobind c d = true.
Proof.
  simpl. split; [wf_tac|]. split; [wf_tac|].
  assert (P : forall w, (w = VChunk ex_obj \/ w = VChunk ex_obj') -> ~ asks_nothing w /\ ~ is_empty w).
  { intros w [->| ->]; split; intros H; inversion H. }
  split; [|split; [|reflexivity]]; intros n w [H|H]; simpl in H;
    try (injection H as <- <-; right; right; apply P; auto);
    try (destruct H as [H|H]; [discriminate|destruct H]); try destruct H.
Qed.

(** ** C06 *)

(** A successful match gives bindings under which the pattern is true of the chunk; they
    extend the prior bindings.  Guards: variable names that cannot be confused with bound
    one-letter names (see the refutation), None and 'None' not mixed. *)
Theorem C06_match_sound_partial : forall b c d b',
  wf_chunk c -> const_pattern c -> wf_chunk d -> fact d ->
  good_bindings b -> one_empty b c d -> names_safe b c -> none_alone c ->
  chunk_le b c d = (b', true) ->
  satisfies (dget (bpos b')) c d /\ good_bindings b' /\ keeps b b'.
Proof. exact chunk_le_sound. Qed.
Print Assumptions C06_match_sound_partial.

Example C06_example : wf_chunk ex_varpat /\ const_pattern ex_varpat /\ good_bindings ex_b /\
  one_empty ex_b ex_varpat ex_big /\ names_safe ex_b ex_varpat /\ none_alone ex_varpat /\
  chunk_le ex_b ex_varpat ex_big =
    (MkB [("x", VChunk ex_obj); ("y", VStr "5")] [("y", [VStr "9"]); ("x", [VStr "7"])], true).
Proof. exact varpat_example. Qed.

(** Without [names_safe] the claim is false: a variable with a name of several letters is
    read letter by letter when chunks are compared. *)
Theorem C06_match_refuted : exists b c d b',
  wf_chunk c /\ const_pattern c /\ wf_chunk d /\ fact d /\ good_bindings b /\
  one_empty b c d /\ none_alone c /\
  chunk_le b c d = (b', true) /\ ~ satisfies (dget (bpos b')) c d.
Proof. exact long_names_unsound. Qed.
Print Assumptions C06_match_refuted.

(** ** C07 *)

(** If some assignment respects the prior bindings and makes the pattern true, the match
    succeeds and the assignment respects the resulting bindings.  Guards: None and 'None'
    not mixed, and a slot that the pattern demands to be 'None' exists in the chunk. *)
Theorem C07_match_complete_partial : forall b c d f,
  wf_chunk c -> const_pattern c -> wf_chunk d -> fact d ->
  good_bindings b -> one_empty b c d ->
  (forall n w, In (n, Some w) (cslots c) -> vvals w = VStr "None" -> slot_value d n <> VNone) ->
  respects f b -> satisfies f c d ->
  snd (chunk_le b c d) = true /\ respects f (fst (chunk_le b c d)).
Proof. exact chunk_le_complete. Qed.
Print Assumptions C07_match_complete_partial.

(** Without the last guard the claim is false: a slot that the chunk's type lacks is empty,
    but does not match a demanded 'None'. *)
Theorem C07_match_complete_refuted : exists b c d f,
  wf_chunk c /\ const_pattern c /\ wf_chunk d /\ fact d /\ good_bindings b /\ one_empty b c d /\
  respects f b /\ satisfies f c d /\ snd (chunk_le b c d) = false.
Proof. exact none_incomplete. Qed.
Print Assumptions C07_match_complete_refuted.

Example C07_example : respects (dget (bpos (fst (chunk_le ex_b ex_varpat ex_big)))) ex_b /\
  satisfies (dget (bpos (fst (chunk_le ex_b ex_varpat ex_big)))) ex_varpat ex_big.
Proof. exact varpat_example2. Qed.

(** ** C08 *)

Theorem C08_matching_never_rebinds : forall b c d, keeps b (fst (chunk_le b c d)).
Proof. exact chunk_le_keeps. Qed.
Print Assumptions C08_matching_never_rebinds.

(** Also when the match fails half-way (here: arg1 binds nothing new, arg2 fails). *)
Example C08_example :
  let b := MkB [("y", VStr "6")] [] in
  chunk_le b ex_varpat ex_big = (MkB [("y", VStr "6"); ("x", VChunk ex_obj')] [], false).
Proof. reflexivity. Qed.
