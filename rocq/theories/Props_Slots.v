(** Property theorems about slots, chunk types and times: C26, C33 to C37. *)
From Coq Require Import Qabs.
From Verif Require Import BaseFacts Chunks ChunkSpec ChunkGround ChunkWitness PmFacts ResolveFacts SplitFacts TypeFacts RoundFacts.
Local Open Scope string_scope.

(** ** C26 *)

Theorem C26_score_never_positive : forall t mp b c d,
  penalties_nonpos t mp -> (snd (pm_match t mp b c d) <= 0)%Q.
Proof. exact pm_match_nonpos. Qed.
Print Assumptions C26_score_never_positive.

(** For every pattern, with variables and negations. *)
Theorem C26_score_zero_iff_match : forall t mp b c d,
  penalties_neg t mp ->
  ((snd (pm_match t mp b c d) == 0)%Q <-> snd (chunk_le b c d) = true) /\
  (snd (chunk_le b c d) = true -> fst (pm_match t mp b c d) = fst (chunk_le b c d)).
Proof. exact pm_match_agrees. Qed.
Print Assumptions C26_score_zero_iff_match.

Theorem C26_score_is_sum_of_penalties : forall t mp b c d,
  wf_chunk c -> const_pattern c -> no_variables c -> wf_chunk d -> fact d ->
  fst (pm_match t mp b c d) = b /\
  ((fact c /\ same_fact c d /\ (snd (pm_match t mp b c d) == 0)%Q) \/
   exists q, slots_pen t mp d (cslots c) q /\ (snd (pm_match t mp b c d) == q)%Q).
Proof. exact pm_match_const. Qed.
Print Assumptions C26_score_is_sum_of_penalties.

Definition ex_sims : simtable := [((VStr "red", VStr "blue"), (-1 # 2)%Q); ((VStr "blue", VStr "red"), (-1 # 2)%Q)].
Example C26_example :
  penalties_neg ex_sims 1 /\
  let p := MkChunk "obj" [("color", plain (VStr "red")); ("form", plain (VStr "round"))] in
  let f := MkChunk "obj" [("color", plain (VStr "blue")); ("form", plain (VStr "flat"))] in
  wf_chunk p /\ const_pattern p /\ no_variables p /\ wf_chunk f /\ fact f /\
  (snd (pm_match ex_sims 1 nobind p f) == -3 # 2)%Q.
Proof.
  split.
  - split; [reflexivity|]. intros k q [H|[H|[]]]; injection H as <- <-; reflexivity.
  - cbv zeta. repeat split; wf_tac.
Qed.

(** ** C33 *)

(** Whatever is returned is fully resolved. *)
Theorem C33_result_is_ground : forall b s ni r, check_bound_vars b s ni = Ok r -> ground ni r.
Proof. exact resolve_ground. Qed.
Print Assumptions C33_result_is_ground.

(** Full statement: without the last three hypotheses, every slot is either resolved or
    rejected with ACTRError.  Missing: slots with '<' or '>', variables bound to empty slots,
    lone unbound negated variables. *)
Theorem C33_resolved_or_actrerror_partial : forall b s ni,
  NoDup (dkeys (bpos b)) ->
  no_marks b (splitting s) -> not_empty_bound b (splitting s) -> negvars_bound b ni (splitting s) ->
  match check_bound_vars b s ni with
  | Ok r => ~ illegal b ni (splitting s) /\ resolves_to b (splitting s) r
  | Err e => e = EActr /\ illegal b ni (splitting s)
  end.
Proof. exact resolve_exact. Qed.
Print Assumptions C33_resolved_or_actrerror_partial.

(** Two crashes: a variable bound to an empty slot, and a lone unbound negated variable. *)
Theorem C33_crash_refuted :
  (exists b s ni, NoDup (dkeys (bpos b)) /\ vvals (splitting s) = VNone /\ vnegvars (splitting s) = [] /\
     (exists x, vvar (splitting s) = Some x /\ In x (dkeys (bpos b))) /\ check_bound_vars b s ni = Err EUnbound) /\
  (exists b s x, vnegvars (splitting s) = [x] /\ ~ In x (dkeys (bpos b)) /\
     check_bound_vars b s false = Err EUnbound).
Proof.
  split.
  - exists (MkB [("x", VNone)] []), (Some (MkVV VNone (Some "x") [] [])), true.
    split; [constructor; [intros []|constructor]|]. split; [reflexivity|]. split; [reflexivity|]. split; [|reflexivity].
    exists "x". split; [reflexivity|]. left. reflexivity.
  - exists nobind, (Some (MkVV VNone None [] ["y"])), "y". split; [reflexivity|]. split; [intros []|reflexivity].
Qed.
Print Assumptions C33_crash_refuted.

Example C33_example :
  let b := MkB [("x", VStr "a"); ("y", VStr "b")] [] in
  let s := Some (MkVV (VStr "a") (Some "x") [VStr "c"] ["y"]) in
  NoDup (dkeys (bpos b)) /\ no_marks b (splitting s) /\ not_empty_bound b (splitting s) /\
  negvars_bound b false (splitting s) /\
  check_bound_vars b s false = Ok (MkVV (VStr "a") None [VStr "c"; VStr "b"] []) /\
  check_bound_vars b s true = Err EActr.
Proof.
  cbv zeta. split; [|split; [|split; [|split; [|split; reflexivity]]]].
  - repeat constructor; simpl; intuition discriminate.
  - split; [reflexivity|]. intros x v E [H|[H|[]]]; injection H as <- <-; reflexivity.
  - intros x v E _ [H|[H|[]]]; injection H as <- <-; intros B; inversion B.
  - right. left. exists "x". split; [reflexivity|discriminate].
Qed.

(** ** C34 *)

Theorem C34_rounding_monotone : forall x y, (x <= y)%Q -> (roundtime x <= roundtime y)%Z.
Proof. exact roundtime_mono. Qed.
Print Assumptions C34_rounding_monotone.

Theorem C34_rounding_idempotent : forall t, roundtime (seconds t) = t.
Proof. exact roundtime_seconds. Qed.
Print Assumptions C34_rounding_idempotent.

Theorem C34_rounding_close : forall x, (Qabs (seconds (roundtime x) - x) <= 1 # 20000)%Q.
Proof. exact roundtime_close. Qed.
Print Assumptions C34_rounding_close.

Theorem C34_halfway_goes_to_even : forall x,
  (Qabs (seconds (roundtime x) - x) == 1 # 20000)%Q -> Z.even (roundtime x) = true.
Proof. exact roundtime_halfway. Qed.
Print Assumptions C34_halfway_goes_to_even.

Example C34_example : roundtime (1 # 3) = 3333%Z /\ roundtime (-1 # 3) = (-3333)%Z /\
  roundtime (1 # 20000) = 0%Z /\ roundtime (3 # 20000) = 2%Z.
Proof. repeat split. Qed.

(** ** C35 *)

Theorem C35_chunktype_slots : forall r cls a defaults include r',
  chunktype r cls a defaults include = Ok r' ->
  exists ct, dget r' cls = Some ct /\ increasing (ctfields ct) /\
    (forall n, In n (ctfields ct) <->
       In n (fields_of_arg a) \/
       exists p pt, In p include /\ dget r p = Some pt /\ In n (ctfields pt)) /\
    (forall p, In p include -> exists pt, dget r p = Some pt) /\
    (forall t, t <> cls -> dget r' t = dget r t).
Proof. exact chunktype_spec. Qed.
Print Assumptions C35_chunktype_slots.

Theorem C35_new_chunk_slots : forall r ty args r' c,
  mk_chunk r ty args = Ok (r', c) ->
  ctype c = ty /\
  (forall n x, dget args n = Some x -> exists w, convert x = Ok w /\ dget (cslots c) n = Some (Some w)) /\
  (forall n, dget args n = None -> In n (dkeys (cslots c)) -> dget (cslots c) n = Some None) /\
  (forall n, In n (dkeys (cslots c)) <->
     In n (dkeys args) \/ exists ct, dget r ty = Some ct /\ In n (ctfields ct)) /\
  (exists ct', dget r' ty = Some ct' /\ ctfields ct' = dkeys (cslots c)) /\
  (forall t, t <> ty -> dget r' t = dget r t).
Proof. exact mk_chunk_spec. Qed.
Print Assumptions C35_new_chunk_slots.

(** In every history of definitions and chunk creations. *)
Theorem C35_types_stay_sorted : forall ops ty ct,
  dget (type_run ops) ty = Some ct -> increasing (ctfields ct).
Proof. exact (fun ops => type_run_ok ops). Qed.
Print Assumptions C35_types_stay_sorted.

Theorem C35_new_chunks_well_formed : forall ops ty args r' c,
  (forall n x, In (n, x) args -> wf_raw x) ->
  mk_chunk (type_run ops) ty args = Ok (r', c) -> wf_chunk c.
Proof. exact (fun ops ty args r' c H E => proj1 (mk_chunk_wf _ _ _ _ _ (type_run_ok ops) H E)). Qed.
Print Assumptions C35_new_chunks_well_formed.

(** Full statement: for every history.  Missing: chunktype with include for a special type. *)
Theorem C35_special_types_fixed_partial : forall ops,
  Forall no_special_include ops -> specials_kept (type_run ops).
Proof. exact special_run. Qed.
Print Assumptions C35_special_types_fixed_partial.

Theorem C35_special_types_refuted : exists ops, ~ specials_kept (type_run ops).
Proof. exact special_include_extends. Qed.
Print Assumptions C35_special_types_refuted.

Example C35_example :
  let ops := [TDef "p" (FString "b, a") [] []; TDef "q" (FString "c, a") [] ["p"];
              TMake "q" [("d", RStr "5"); ("a", RStr "=x")]; TMake "_manual" [("finger", RStr "5")]] in
  Forall no_special_include ops /\
  dget (type_run ops) "q" = Some (MkCT ["a"; "b"; "c"; "d"] []) /\
  dget (type_run ops) "_manual" = Some (MkCT ["cmd"; "key"] []).
Proof.
  cbv zeta. split; [|split; reflexivity].
  repeat constructor; simpl; intros H; exfalso; apply H; reflexivity.
Qed.

(** ** C36 *)

(** chunktype accepts the slot names isa and ISA, and defaults have no effect. *)
Theorem C36_isa_refuted : exists r', chunktype init_registry "goal" (FString "isa, ISA") [] [] = Ok r'.
Proof. exact isa_accepted. Qed.
Print Assumptions C36_isa_refuted.

Theorem C36_default_refuted : exists r r' c,
  chunktype init_registry "goal" (FString "state") [plain (VStr "start")] [] = Ok r /\
  mk_chunk r "goal" [] = Ok (r', c) /\ slot_value c "state" = VEmpty.
Proof. exact default_ignored. Qed.
Print Assumptions C36_default_refuted.

(** In general: creating a chunk gives the same slots whatever the defaults are. *)
Theorem C36_defaults_have_no_effect : forall r s ty args r' c s' d,
  registry_ok r -> same_fields r s ->
  mk_chunk r ty args = Ok (r', c) -> mk_chunk s ty args = Ok (s', d) ->
  forall n, dget (cslots c) n = dget (cslots d) n.
Proof. exact defaults_unused. Qed.
Print Assumptions C36_defaults_have_no_effect.

Example C36_example :
  let r := [("goal", MkCT ["state"; "x"] [plain (VStr "start")])] in
  let s := [("goal", MkCT ["state"; "x"] [])] in
  registry_ok r /\ same_fields r s /\ (exists p, mk_chunk r "goal" [("x", RStr "1")] = Ok p) /\
  (exists p, mk_chunk s "goal" [("x", RStr "1")] = Ok p).
Proof.
  cbv zeta. split; [|split; [|split; eexists; reflexivity]].
  - intros ty ct H. apply dget_In in H. destruct H as [H|[]]. injection H as <- <-. repeat constructor.
  - intros ty. unfold dget. destruct (String.eqb "goal" ty); [reflexivity|exact I].
Qed.

(** ** C37 *)

Theorem C37_marked_text_is_split : forall ps, Forall good_part ps -> ps <> [] ->
  match stringsplitting (write ps) with
  | Ok w => ~ overfull ps /\ says ps w
  | Err e => e = EActr /\ overfull ps
  end.
Proof. exact (fun ps => split_faithful "" ps I). Qed.
Print Assumptions C37_marked_text_is_split.

Theorem C37_plain_text_is_value : forall s, plain_text s -> stringsplitting s = Ok (MkVV (VStr s) None [] []).
Proof. exact split_plain. Qed.
Print Assumptions C37_plain_text_is_value.

(** An unmarked value in front of marked parts is lost. *)
Theorem C37_unmarked_value_lost : forall pre ps, plain_text pre -> Forall good_part ps -> ps <> [] ->
  stringsplitting (pre ++ write ps) = stringsplitting (write ps).
Proof. exact split_drops_prefix. Qed.
Print Assumptions C37_unmarked_value_lost.

Example C37_example :
  let ps := [MkPart false true "x"; MkPart true true "y"; MkPart false false "2"; MkPart true false "3"] in
  Forall good_part ps /\ write ps = "=x~=y!2~!3" /\
  stringsplitting (write ps) = Ok (MkVV (VStr "2") (Some "x") [VStr "3"] ["y"]) /\
  stringsplitting "!2!3" = Err EActr /\
  stringsplitting ("5" ++ write [MkPart false true "x"]) = Ok (MkVV VNone (Some "x") [] []).
Proof.
  cbv zeta. repeat split; repeat constructor; simpl; try discriminate.
Qed.
