(** Property theorems about activation and latency: C22 to C25, C72 to C75. *)
From Coq Require Import Reals Qreals Lra Permutation.
From Verif Require Import BaseFacts Chunks TypeFacts ResolveFacts DecMem DecMemFacts FanFacts Buffers RetrieveFacts Subsymbolic SubFacts SubWitness.
Local Open Scope string_scope.
Local Open Scope R_scope.

(** ** C22 *)

(** Full statement: without [marks_free] in [request_setup] (see C19).  The total activation of an entry that takes part
    is its base level, what it receives from the buffers, its mismatch and the noise. *)
Theorem C22_total_activation_partial : forall z given noise now reg o bs x finst recent m pat,
  request_setup reg o bs m pat ->
  let part := totals z given noise now pat x finst recent m in
  let entry k c ts := nth_error (dmdata m) k = Some (c, ts) in
  let time := latency (zfactor z) (zexp z) in
  match sub_retrieve z given noise now reg o bs x finst recent m with
  | Err e => exists k c ts, entry k c ts /\ takes_part z pat x finst recent c /\
               baselevel now ts (zbll z) (zdecay z) (given c) (zopt z) = BRaise e
  | Ok (Some c, q) =>
      exists k ts a, entry k c ts /\ part k c ts a /\ zthr z <= a /\ q = time (if cslots c then zthr z else a) /\
        forall k' c' ts' a', entry k' c' ts' -> part k' c' ts' a' -> a' <= a /\ ((k' < k)%nat -> a' < a)
  | Ok (None, q) => q = time (zthr z) /\ forall k c ts a, entry k c ts -> part k c ts a -> a < zthr z
  end.
Proof. exact activation_retrieval. Qed.
Print Assumptions C22_total_activation_partial.

Theorem C22_raised_activation_partial : forall z given noise now reg o bs x finst recent m pat k c ts e,
  request_setup reg o bs m pat -> nth_error (dmdata m) k = Some (c, ts) -> takes_part z pat x finst recent c ->
  baselevel now ts (zbll z) (zdecay z) (given c) (zopt z) = BRaise e ->
  exists e', sub_retrieve z given noise now reg o bs x finst recent m = Err e'.
Proof. exact activation_error. Qed.
Print Assumptions C22_raised_activation_partial.

Example C22_activation_example : exists pat, request_setup init_registry sx_req sx_bs sx_dm pat.
Proof. exact sx_setup. Qed.

(** ** C23 *)

Theorem C23_latency_decreases : forall factor exponent a a', 0 < factor -> 0 < exponent ->
  0 < latency factor exponent a /\ (a < a' -> latency factor exponent a' < latency factor exponent a).
Proof. exact latency_decreases. Qed.
Print Assumptions C23_latency_decreases.

Theorem C23_failure_takes_longest : forall z given noise now reg o bs x finst recent m c q,
  0 < zfactor z -> 0 < zexp z -> sub_retrieve z given noise now reg o bs x finst recent m = Ok (c, q) ->
  0 < q /\ q <= latency (zfactor z) (zexp z) (zthr z) /\ (c = None -> q = latency (zfactor z) (zexp z) (zthr z)).
Proof. exact times_bounded. Qed.
Print Assumptions C23_failure_takes_longest.

Example C23_example :
  (exists c, sub_retrieve (sx_simple 1) (fun _ => None) sx_noise 9 init_registry sx_req sx_bs RNone 0 [] (mem_run sx_double) = Ok (Some c, latency (1 / 10) 1 3)) /\
  sub_retrieve (sx_simple 4) (fun _ => None) sx_noise 9 init_registry sx_req sx_bs RNone 0 [] (mem_run sx_double) = Ok (None, latency (1 / 10) 1 4).
Proof. split; [exact sx_found|exact sx_missed]. Qed.

(** ** C24 *)

(** One more presentation.  Without any presentation the base level is unset, unless the modeller gave an activation. *)
Theorem C24_practice : forall now ts ts' t d act opt,
  0 < d -> (opt = true -> d < 1) -> Permutation ts' (t :: ts) -> Forall (past now) (t :: ts) ->
  exists r', baselevel now ts' true d act opt = BVal r' /\
    match baselevel now ts true d act opt with
    | BVal r => r < r'
    | BUnset => ts = [] /\ act = None
    | BRaise _ => False
    end.
Proof. exact practice. Qed.
Print Assumptions C24_practice.

Theorem C24_decay : forall now now' ts d act opt,
  0 < d -> (opt = true -> d < 1) -> (now < now')%Q -> Forall (past now) ts -> ts <> [] ->
  exists r r', baselevel now ts true d act opt = BVal r /\ baselevel now' ts true d act opt = BVal r' /\ r' < r.
Proof. exact decays. Qed.
Print Assumptions C24_decay.

(** A later presentation in place of an earlier one.  Full statement: with optimized learning too. *)
Theorem C24_recency_partial : forall now ts t t' ts1 ts2 d act,
  0 < d -> (t < t')%Q -> past now t' -> Forall (past now) ts -> Permutation ts1 (t :: ts) -> Permutation ts2 (t' :: ts) ->
  exists r r', baselevel now ts1 true d act false = BVal r /\ baselevel now ts2 true d act false = BVal r' /\ r < r'.
Proof. exact recent_counts_more. Qed.
Print Assumptions C24_recency_partial.

(** With optimized learning it never counts less, but need not count more. *)
Theorem C24_recency_optimized_partial : forall now ts t t' ts1 ts2 d act,
  0 < d < 1 -> (t < t')%Q -> past now t' -> Forall (past now) ts -> Permutation ts1 (t :: ts) -> Permutation ts2 (t' :: ts) ->
  exists r r', baselevel now ts1 true d act true = BVal r /\ baselevel now ts2 true d act true = BVal r' /\ r <= r'.
Proof. exact recent_counts_optimized. Qed.
Print Assumptions C24_recency_optimized_partial.

Theorem C24_recency_optimized_refuted : exists now ts t t', (t < t')%Q /\ past now t' /\ Forall (past now) ts /\
  forall d act, d < 1 -> exists r, baselevel now (t :: ts) true d act true = BVal r /\ baselevel now (t' :: ts) true d act true = BVal r.
Proof.
  exists 9%Q, [5%Q], 1%Q, 4%Q. split; [reflexivity|]. split; [reflexivity|]. split; [constructor; [reflexivity|constructor]|]. intros d act D.
  eexists. rewrite !baselevel_optimized by (assumption || (repeat constructor)). split; reflexivity.
Qed.
Print Assumptions C24_recency_optimized_refuted.

(** With decay 1 or more optimized learning has no base level at all. *)
Theorem C24_optimized_decay_refuted : forall now ts d act, 1 <= d -> ts <> [] -> exists e, baselevel now ts true d act true = BRaise e.
Proof.
  intros now [|t l] d act D N; [congruence|]. exists EValue. unfold baselevel, level_optimized.
  destruct (Rlt_dec d 1); [lra|]. destruct act; reflexivity.
Qed.
Print Assumptions C24_optimized_decay_refuted.

(** Optimized learning looks at the latest presentation where the formula it approximates looks at the first: it
    gives more than the exact base level, by at least ln (1 / (1 - d)). *)
Theorem C24_optimized_overestimates : forall now ts d, 0 < d < 1 -> Forall (past now) ts -> ts <> [] ->
  exists r r', baselevel now ts true d None false = BVal r /\ baselevel now ts true d None true = BVal r' /\ r + ln (1 / (1 - d)) <= r'.
Proof. exact optimized_more. Qed.
Print Assumptions C24_optimized_overestimates.

Example C24_example :
  Forall (past 9) [1%Q; 5%Q; 4%Q] /\ Permutation [5%Q; 1%Q; 4%Q] (1%Q :: [5%Q; 4%Q]) /\ (4 < 5)%Q /\ 0 < 1 / 2 < 1.
Proof. split; [repeat constructor|]. split; [apply perm_swap|]. split; [reflexivity|lra]. Qed.

(** ** C25 *)

Theorem C25_weight_divided : forall c w only,
  weigh c w only = (if sources only c then 0 else w / INR (List.length (sources only c))) /\
  Rsum (map (fun _ => weigh c w only) (sources only c)) = if sources only c then 0 else w.
Proof. exact weights_sum. Qed.
Print Assumptions C25_weight_divided.

(** After every history of the memory: what a chunk receives is the sum over the buffers and their sources. *)
Theorem C25_spreading_exact : forall ops s restricted only i srcs, Forall op_ok ops ->
  snd (spreading s restricted only i (mem_run ops) srcs) = received s restricted only (mem_run ops) i srcs.
Proof.
  intros ops s restricted only i srcs H. pose proof (spreading_received s restricted only i srcs (mem_run ops) (proj2 (run_inv ops H))) as X.
  destruct (spreading s restricted only i (mem_run ops) srcs). apply X.
Qed.
Print Assumptions C25_spreading_exact.

Theorem C25_nothing_shared : forall ops s restricted only i srcs, Forall op_ok ops ->
  (forall w c n j, In (w, Some c) srcs -> In (n, j) (sources only c) -> linked only (place restricted n) j i = false) ->
  snd (spreading s restricted only i (mem_run ops) srcs) = 0.
Proof. intros ops s restricted only i srcs H. apply nothing_shared. apply run_inv. exact H. Qed.
Print Assumptions C25_nothing_shared.

Example C25_example : Forall op_ok sx_ops /\
  sources false sx_goal = [("now", VStr "3"); ("next", VStr "4")] /\
  linked false None (VStr "3") (sx_count "2" "3") = true /\ linked false None (VStr "4") (sx_count "2" "3") = false /\
  fan sx_dm (VStr "3") = 1%nat /\
  received 2 false false sx_dm (sx_count "2" "3") [(1, Some sx_goal); (1, None)] = (2 - ln 2) / 2.
Proof.
  split; [exact sx_ops_ok|]. split; [reflexivity|]. split; [reflexivity|]. split; [reflexivity|]. split; [reflexivity|].
  unfold received, from_buffer, link_strength. simpl. replace ((1 + 1) / 1) with 2 by lra. lra.
Qed.

(** ** C72 *)

(** Full statement: for any number of presentations at the present moment, with optimized learning too (see the
    refutations).  One presentation that is not in the past is ignored. *)
Theorem C72_present_ignored_partial : forall now ts t ts' d act,
  ~ past now t -> Forall (past now) ts -> Permutation ts' (t :: ts) ->
  baselevel now ts' true d act false = baselevel now ts true d act false.
Proof. exact one_ignored. Qed.
Print Assumptions C72_present_ignored_partial.

(** Two of them raise RuntimeWarning, also in retrievals. *)
Theorem C72_two_present_refuted :
  (forall now ts t t' ts' d act, ~ past now t -> ~ past now t' -> Permutation ts' (t :: t' :: ts) ->
     baselevel now ts' true d act false = BRaise EWarning) /\
  forall noise, sub_retrieve (sx_params true false) (fun _ => None) noise 3 init_registry sx_req sx_bs RNone 0 [] sx_twice = Err EWarning.
Proof. split; [exact two_raise|]. intros noise. reflexivity. Qed.
Print Assumptions C72_two_present_refuted.

(** With optimized learning one raises ValueError. *)
Theorem C72_optimized_present_refuted :
  (forall now ts d act, (exists t, In t ts /\ ~ past now t) -> baselevel now ts true d act true = BRaise EValue) /\
  forall noise, sub_retrieve (sx_params true true) (fun _ => None) noise 3 init_registry sx_req sx_bs RNone 0 [] sx_once = Err EValue.
Proof.
  split; [exact optimized_raise|]. intros noise. unfold sub_retrieve.
  cbv -[Rle_dec Rlt_dec Rplus Q2R latency Rdiv IZR Rpower ln exp Rminus Rmult INR Ropp spreading]. destruct (Rlt_dec _ _); reflexivity.
Qed.
Print Assumptions C72_optimized_present_refuted.

Example C72_example : ~ past 3 (round4 3) /\ Forall (past 3) [round4 1] /\
  times sx_once (sx_count "2" "3") = [round4 1; round4 3].
Proof. split; [discriminate|]. split; [repeat constructor|]. reflexivity. Qed.

(** ** C73 *)

(** The claim (a trace in the future is reported as ACTRError) is false: no base level is ever reported that way,
    and one trace in the future is silently ignored. *)
Theorem C73_future_trace_refuted :
  (forall now ts bll d act opt, baselevel now ts bll d act opt <> BRaise EActr) /\
  forall now t ts d act, (now < t)%Q -> Forall (past now) ts ->
    baselevel now (t :: ts) true d act false = baselevel now ts true d act false.
Proof. split; [exact never_reported|exact future_ignored]. Qed.
Print Assumptions C73_future_trace_refuted.

(** ** C74 *)

(** The claim (with base-level learning off the activation given by the modeller is the base level) is false for every
    activation: the result is ln (1 + e^a), which is larger than a and positive. *)
Theorem C74_given_activation_refuted : forall now ts d opt a,
  baselevel now ts false d (Some a) opt = BVal (ln (1 + exp a)) /\ a < ln (1 + exp a) /\ 0 < ln (1 + exp a).
Proof. exact given_more. Qed.
Print Assumptions C74_given_activation_refuted.

(** ** C75 *)

(** Full statement: without [held_once].  The strength of association is S minus the logarithm of the fan of the documentation:
    one plus the number of chunks in memory with [j] in a slot. *)
Theorem C75_documented_fan_partial : forall ops j i ts s only, Forall op_ok ops -> source j -> solid j ->
  held_once (mem_run ops) j -> In (i, ts) (dmdata (mem_run ops)) ->
  association s (snd (strength (mem_run ops) j i None only)) =
  if linked only None j i then s - ln (1 + INR (holders (mem_run ops) j)) else 0.
Proof. exact documented_fan. Qed.
Print Assumptions C75_documented_fan_partial.

(** A chunk with the same value in two slots counts twice. *)
Theorem C75_repeated_value_refuted : exists ops j i ts, Forall op_ok ops /\ In (i, ts) (dmdata (mem_run ops)) /\ linked false None j i = true /\
  holders (mem_run ops) j = 2%nat /\ forall s, association s (snd (strength (mem_run ops) j i None false)) = s - ln 4.
Proof.
  exists sx_double, (VStr "2"), (sx_count "2" "3"). eexists. split; [repeat (constructor; [apply sx_plain|]); constructor|].
  split; [right; left; reflexivity|]. split; [reflexivity|]. split; [reflexivity|]. intros s. cbv -[ln IZR Rminus Rdiv Rplus]. do 2 f_equal. lra.
Qed.
Print Assumptions C75_repeated_value_refuted.

Example C75_example : Forall op_ok sx_ops /\ solid (VStr "3") /\ held_once sx_dm (VStr "3") /\ holders sx_dm (VStr "3") = 1%nat /\
  linked true None (VStr "3") (sx_count "2" "3") = false /\ linked false None (VStr "3") (sx_count "2" "3") = true.
Proof.
  split; [exact sx_ops_ok|]. split; [split; reflexivity|]. split; [|repeat split].
  intros c ts H. simpl in H. destruct H as [H|[H|[H|[H|[]]]]]; injection H as <- <-; simpl; lia.
Qed.
