(** Property theorems about retrieval: C19 to C22, C55. *)
From Coq Require Import Lqa.
From Verif Require Import BaseFacts Chunks TypeFacts ResolveFacts DecMem DecMemFacts Buffers BufferFacts ModifyFacts RetrieveFacts FinstFacts ChunkFacts ChunkWitness.
From Verif Require Import ChunkSpec.
Local Open Scope string_scope.

(** Facts about counting, a memory with four of them, and a retrieval buffer with two finsts. *)
Definition ex_count (a b : string) : chunk := MkChunk "count" [("first", plain (VStr a)); ("second", plain (VStr b))].
Definition ex_dm : decmem :=
  add_run [(ex_count "1" "2", 0%Q); (ex_count "2" "3", 0%Q); (ex_count "2" "4", 1%Q); (ex_count "2" "5", 2%Q)].
Definition ex_rbuf : buffer := MkBuf KRetrieval [] (Some 0%nat) 2 [] [] None 0.
Definition ex_rworld : world := MkW [ex_dm] [ex_rbuf] init_registry.
(** first =x  second ~4 *)
Definition ex_req : chunk :=
  MkChunk "count" [("first", Some (MkVV VNone (Some "x") [] [])); ("second", Some (MkVV VNone None [VStr "4"] []))].
Definition ex_rbs : bindings := MkB [("x", VStr "2")] [].
Definition ex_symbolic : rparams := MkRP false false 1 0 (5 # 100) (fun a => a) [] [] false false.
Definition ex_subsymbolic : rparams := MkRP true false 1 0 (5 # 100) (fun a => 10 - a)%Q [] [] false false.

Lemma ex_setup : exists reg' pat, retrieval_setup ex_rworld 0 ex_rbuf 0 ex_dm ex_req ex_rbs reg' pat.
Proof.
  eexists _, _. split; [reflexivity|]. split; [reflexivity|]. split; [reflexivity|]. split; [reflexivity|].
  split. { intros c ts H. simpl in H. destruct H as [H|[H|[H|[H|[]]]]]; injection H as <- <-; split; wf_tac. }
  split; [apply init_ok|]. split; [repeat constructor; simpl; intuition discriminate|]. split; [repeat constructor; intros []|].
  split. { intros n w [H _]. simpl in H. destruct H as [H|[H|[]]]; injection H as <- <-; (split; [reflexivity|]); intros x v E Hx; [|discriminate E].
           destruct Hx as [Hx|[]]. injection Hx as <- <-. reflexivity. }
  split. { split.
    - intros x v [H|[]]. injection H as <- <-. split; constructor.
    - intros n w [H _]. simpl in H. destruct H as [H|[H|[]]]; injection H as <- <-; simpl; wf_tac. }
  reflexivity.
Qed.

Lemma ex_presented : presented ex_dm.
Proof. intros c ts H. simpl in H. destruct H as [H|[H|[H|[H|[]]]]]; injection H as <- <-; discriminate. Qed.

(** ** C19 *)

(** Full statement: without [marks_free] in [retrieval_setup].  Missing: requests for the strings
    '<' and '>', which are garbled (see the refutation).  The request is the given chunk with
    variables resolved; memory holds facts. *)
Theorem C19_retrieval_sound_complete_partial : forall w i b m dm o bs reg' pat p act time x,
  retrieval_setup w i b m dm o bs reg' pat -> presented dm -> psub p = false ->
  resolved bs o pat /\
  exists w' out, step w (ORetrieve i p act time o bs x) = (w', Ok out) /\
    let ok c ts := In (c, ts) (dmdata dm) /\ passes x (bfinst b) (brecent b) c /\ asked pat c /\ not_new ts time in
    match out with
    | Some c => exists ts, ok c ts
    | None => forall c ts, ~ ok c ts
    end.
Proof. exact symbolic_sound_complete. Qed.
Print Assumptions C19_retrieval_sound_complete_partial.

(** A fact with the value '>' cannot be retrieved with a request for '>'. *)
Theorem C19_comparison_sign_refuted : exists w i o bs c ts dm,
  nth_error (mems w) 0 = Some dm /\ In (c, ts) (dmdata dm) /\ not_new ts 1 /\ asked o c /\ no_variables o /\
  forall act, exists w', step w (ORetrieve i ex_symbolic act 1 o bs RNone) = (w', Ok None).
Proof.
  set (c := MkChunk "op" [("sign", plain (VStr ">"))]).
  exists (MkW [add_run [(c, 0%Q)]] [ex_rbuf] init_registry), 0%nat, c, nobind, c, [round4 0], (add_run [(c, 0%Q)]).
  split; [reflexivity|]. split; [left; reflexivity|]. split; [exists (round4 0), []; split; [reflexivity|discriminate]|].
  split; [left; split; [wf_tac|apply fact_eq_extensional; [wf_tac|wf_tac|wf_tac|wf_tac|reflexivity]]|]. split; [wf_tac|]. intros act. eexists. reflexivity.
Qed.
Print Assumptions C19_comparison_sign_refuted.

Example C19_example : (exists reg' pat, retrieval_setup ex_rworld 0 ex_rbuf 0 ex_dm ex_req ex_rbs reg' pat) /\
  presented ex_dm /\ psub ex_symbolic = false /\
  snd (step ex_rworld (ORetrieve 0 ex_symbolic (fun _ => ASkip) 2 ex_req ex_rbs RNone)) = Ok (Some (ex_count "2" "3")) /\
  snd (step ex_rworld (ORetrieve 0 ex_symbolic (fun _ => ASkip) 3 ex_req ex_rbs RNone)) = Ok (Some (ex_count "2" "5")).
Proof. split; [exact ex_setup|]. split; [exact ex_presented|]. split; [reflexivity|]. split; vm_compute; reflexivity. Qed.

(** ** C20 *)

(** Full statement: as for C19.  The result is the last matching entry in the order in which
    entries were first added; no memory is changed. *)
Theorem C20_retrieval_pure_and_last_partial : forall w i b m dm o bs reg' pat p act time x,
  retrieval_setup w i b m dm o bs reg' pat -> presented dm -> psub p = false ->
  let ok c ts := passes x (bfinst b) (brecent b) c /\ asked pat c /\ not_new ts time in
  exists w' out, step w (ORetrieve i p act time o bs x) = (w', Ok out) /\ mems w' = mems w /\
    match out with
    | Some c => exists l1 ts l2, dmdata dm = (l1 ++ (c, ts) :: l2)%list /\ ok c ts /\
                  forall c' ts', In (c', ts') l2 -> ~ ok c' ts'
    | None => forall c ts, In (c, ts) (dmdata dm) -> ~ ok c ts
    end.
Proof. exact symbolic_last. Qed.
Print Assumptions C20_retrieval_pure_and_last_partial.

(** It takes no time if a chunk is found, otherwise the time of a rule (a chunk without slots
    counts as not found). *)
Theorem C20_retrieval_time : forall w i b p act time o bs x w' out q, psub p = false ->
  retrieve_buf w i b p act time o bs x = (w', Ok (out, q)) ->
  match out with
  | Some c => q = match cslots c with [] => pfiring p | _ => 0%Q end
  | None => q = pfiring p
  end.
Proof. exact symbolic_retrieval_time. Qed.
Print Assumptions C20_retrieval_time.

Example C20_example : (exists reg' pat, retrieval_setup ex_rworld 0 ex_rbuf 0 ex_dm ex_req ex_rbs reg' pat) /\
  exists w', retrieve_buf ex_rworld 0 ex_rbuf ex_symbolic (fun _ => ASkip) 3 ex_req ex_rbs RNone = (w', Ok (Some (ex_count "2" "5"), 0%Q)).
Proof. split; [exact ex_setup|]. eexists. vm_compute. reflexivity. Qed.

(** ** C21 *)

(** Full statement: for every number of finsts, changed at any time.  Missing: no finsts at all
    and histories that change the number (see the refutations). *)
Theorem C21_recent_bounded_partial : forall ops i w b,
  nth_error (bufs w) i = Some b -> brecent b = [] -> Forall (keeps_finst i) ops ->
  exists b', nth_error (bufs (run ops w)) i = Some b' /\ (List.length (brecent b') <= bfinst b)%nat.
Proof. exact recent_bound. Qed.
Print Assumptions C21_recent_bounded_partial.

(** What is remembered are the last [n] results. *)
Theorem C21_recent_are_last_results_partial : forall ops i w b,
  nth_error (bufs w) i = Some b -> brecent b = [] -> (0 < bfinst b)%nat -> Forall (keeps_finst i) ops ->
  exists b', nth_error (bufs (run ops w)) i = Some b' /\ bkind b' = bkind b /\ bfinst b' = bfinst b /\
    brecent b' = lastn (bfinst b) (results i ops w).
Proof. exact recent_window. Qed.
Print Assumptions C21_recent_are_last_results_partial.

Theorem C21_requests_respect_finsts_partial : forall ops i w b p act t o bs x w' c,
  nth_error (bufs w) i = Some b -> brecent b = [] -> (0 < bfinst b)%nat -> Forall (keeps_finst i) ops ->
  step (run ops w) (ORetrieve i p act t o bs x) = (w', Ok (Some c)) ->
  let recent := lastn (bfinst b) (results i ops w) in
  match x with
  | RNone => True
  | RNot => forall d, In (Some d) recent -> ~ same_entry d c
  | ROnly => exists d, In (Some d) recent /\ same_entry d c
  end.
Proof. exact finsts_respected. Qed.
Print Assumptions C21_requests_respect_finsts_partial.

Definition ex_get (x : recency) : op := ORetrieve 0 ex_symbolic (fun _ => ASkip) 3 ex_req ex_rbs x.

(** Lowering the number of finsts does not shorten what is remembered, also not after further
    retrievals. *)
Theorem C21_lowered_finsts_refuted : exists ops w b,
  nth_error (bufs (run ops w)) 0 = Some b /\ (bfinst b < List.length (brecent b))%nat.
Proof. exists [ex_get RNone; ex_get RNone; OSetFinst 0 1; ex_get RNone], ex_rworld. eexists. split; [vm_compute; reflexivity|]. vm_compute. lia. Qed.
Print Assumptions C21_lowered_finsts_refuted.

(** Without finsts a request for a recently retrieved chunk returns a chunk that was never
    retrieved before. *)
Theorem C21_no_finsts_refuted : exists w c w',
  results 0 [] w = [] /\ step w (ex_get ROnly) = (w', Ok (Some c)).
Proof. exists (MkW [ex_dm] [set_finst ex_rbuf 0] init_registry). eexists _, _. split; [reflexivity|vm_compute; reflexivity]. Qed.
Print Assumptions C21_no_finsts_refuted.

Example C21_example :
  let ops := [ex_get RNone; ex_get RNot] in
  Forall (keeps_finst 0) ops /\ (0 < bfinst ex_rbuf)%nat /\
  results 0 ops ex_rworld = [Some (ex_count "2" "5"); Some (ex_count "2" "3")] /\
  snd (step (run ops ex_rworld) (ex_get RNot)) = Ok None /\
  snd (step (run ops ex_rworld) (ex_get ROnly)) = Ok (Some (ex_count "2" "5")).
Proof. cbv zeta. split; [repeat constructor|]. split; [simpl; lia|]. split; [vm_compute; reflexivity|]. split; vm_compute; reflexivity. Qed.

(** ** C22 *)

(** Full statement: as for C19.  The activation of entry number k before the mismatch penalty
    (base level, spreading, noise) is [act k]; it may be unavailable ([ASkip], such chunks are
    passed over), or calculating it may raise an exception ([AFail]).  Among equal activations the first entry wins. *)
Theorem C22_most_active_chunk_partial : forall w i b m dm o bs reg' pat p act time x,
  retrieval_setup w i b m dm o bs reg' pat -> psub p = true ->
  let part := eligible p pat x (bfinst b) (brecent b) in
  let total := competes p act pat x (bfinst b) (brecent b) in
  let entry k c := exists ts, nth_error (dmdata dm) k = Some (c, ts) in
  match snd (retrieve_buf w i b p act time o bs x) with
  | Err e => exists k c, entry k c /\ part c /\ act k = AFail e
  | Ok (Some c, q) =>
      exists k a, entry k c /\ total k c a /\ (pthr p <= a)%Q /\
        (cslots c <> [] -> q = platency p a) /\
        forall k' c' a', entry k' c' -> total k' c' a' -> (a' <= a)%Q /\ ((k' < k)%nat -> (a' < a)%Q)
  | Ok (None, q) =>
      q = platency p (pthr p) /\ forall k c a, entry k c -> total k c a -> (a < pthr p)%Q
  end.
Proof. exact subsymbolic_retrieval. Qed.
Print Assumptions C22_most_active_chunk_partial.

Theorem C22_undefined_activation_partial : forall w i b m dm o bs reg' pat p act time x k c ts e,
  retrieval_setup w i b m dm o bs reg' pat -> psub p = true ->
  nth_error (dmdata dm) k = Some (c, ts) -> eligible p pat x (bfinst b) (brecent b) c -> act k = AFail e ->
  exists e', snd (retrieve_buf w i b p act time o bs x) = Err e'.
Proof. exact subsymbolic_error. Qed.
Print Assumptions C22_undefined_activation_partial.

(** Activations 9, 1, 8, 1 of the four entries: the first does not match, the third is excluded
    by the negation, and the second wins the tie. *)
Example C22_example : (exists reg' pat, retrieval_setup ex_rworld 0 ex_rbuf 0 ex_dm ex_req ex_rbs reg' pat) /\
  exists w', retrieve_buf ex_rworld 0 ex_rbuf ex_subsymbolic
    (fun k => AVal (match k with 0%nat => 9 | 2%nat => 8 | _ => 1 end)%Q) 3 ex_req ex_rbs RNone
    = (w', Ok (Some (ex_count "2" "3"), (10 - (1 + 0))%Q)).
Proof. split; [exact ex_setup|]. eexists. vm_compute. reflexivity. Qed.

(** ** C55 *)

(** The claim (a search for [>=x] compares with the value of x) is false: a slot that combines a
    comparison sign with a bound variable is always rejected, whatever the value. *)
Theorem C55_comparison_with_variable_refuted :
  (forall b x v m w ni,
    splitting w = MkVV (VStr m) (Some x) (vnegvals (splitting w)) (vnegvars (splitting w)) ->
    m = "<" \/ m = ">" -> x <> "" -> dget (bpos b) x = Some v -> is_relational v = false ->
    exists e, check_bound_vars b w ni = Err e) /\
  exists b w, dget (bpos b) "x" = Some (VStr "100") /\ w = Some (MkVV (VStr ">") (Some "x") [] []) /\
    check_bound_vars b w false = Err EActr.
Proof.
  split; [exact comparison_rejected|]. exists (MkB [("x", VStr "100")] []). eexists. repeat split.
Qed.
Print Assumptions C55_comparison_with_variable_refuted.
