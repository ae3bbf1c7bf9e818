(** Property theorems about declarative memory: C16, C18, C53, C54. *)
From Verif Require Import BaseFacts Chunks DecMem DecMemFacts FanFacts DecMemHeap HeapFacts ChunkWitness.
From Verif Require Import ChunkSpec.
Local Open Scope string_scope.

(** ** C16 *)

(** One addition. *)
Theorem C16_add_appends_time : forall m c t,
  (forall d, same_entry c d -> dm_times (dm_add m c t) d = Some (times m d ++ [round4 t])%list) /\
  (forall d, ~ same_entry c d -> dm_times (dm_add m c t) d = dm_times m d) /\
  ((in_memory m c /\ map fst (dmdata (dm_add m c t)) = map fst (dmdata m)) \/
   (~ in_memory m c /\ map fst (dmdata (dm_add m c t)) = (map fst (dmdata m) ++ [c])%list)) /\
  (dm_ok m -> dm_ok (dm_add m c t)).
Proof. exact add_spec. Qed.
Print Assumptions C16_add_appends_time.

(** Any history of additions. *)
Theorem C16_history_of_adds : forall adds d,
  dm_ok (add_run adds) /\ times (add_run adds) d = presentations adds d /\
  (in_memory (add_run adds) d <-> exists c t, In (c, t) adds /\ same_entry c d).
Proof. exact add_run_spec. Qed.
Print Assumptions C16_history_of_adds.

Example C16_example :
  let adds := [(ex_obj, 1%Q); (ex_fact, 2%Q); (ex_obj', (5 # 2)%Q); (ex_obj, 3%Q)] in
  same_entry ex_obj ex_obj' /\ ~ same_entry ex_obj ex_fact /\
  map fst (dmdata (add_run adds)) = [ex_obj; ex_fact] /\ List.length (times (add_run adds) ex_obj') = 3%nat.
Proof. cbv zeta. split; [reflexivity|]. split; [discriminate|]. split; reflexivity. Qed.

(** ** C18 *)

(** The count used for the strength of association from source [j] is one plus the number of
    slots in memory that hold [j] (in the given slot, if restricted), after every history. *)
Theorem C18_fan_counts_exact : forall ops j i r oc n k,
  Forall op_ok ops -> source j ->
  snd (strength (mem_run ops) j i r oc) = Some (n, k) ->
  n = S (match r with
         | None | Some "" => fan (mem_run ops) j
         | Some s => fan_in (mem_run ops) s j
         end).
Proof. exact fan_exact. Qed.
Print Assumptions C18_fan_counts_exact.

Definition ex_red (n : string) : chunk := MkChunk "o" [("color", plain (VStr "red")); ("name", plain (VStr n))].
Example C18_example :
  let q := MStrength (VStr "red") (ex_red "a") (Some "color") false in
  let q' := MStrength (VStr "red") (ex_red "a") None false in
  let ops := [MAdd (ex_red "a") 0; q; MAdd (ex_red "b") 1; q'; MCopy; MAdd (ex_red "c") 2; MAdd (ex_red "b") 3] in
  Forall op_ok ops /\ source (VStr "red") /\
  snd (strength (mem_run ops) (VStr "red") (ex_red "a") (Some "color") false) = Some (4%nat, 1%nat) /\
  snd (strength (mem_run ops) (VStr "red") (ex_red "a") None false) = Some (4%nat, 1%nat).
Proof.
  cbv zeta. split.
  - repeat constructor; intros n w H; simpl in H; destruct H as [H|[H|[]]]; injection H as <- <-; discriminate.
  - split; [constructor|]. split; reflexivity.
Qed.

(** ** C53 *)

(** Full statement: without [not_inplace].  Missing: a copy shares its arrays of times with the
    original, so assigning to an element of an array is seen in both. *)
Theorem C53_memories_independent_partial : forall ops1 ops2 k,
  Forall not_inplace ops1 -> Forall not_inplace ops2 ->
  (k < List.length (objs (hrun ops1 heap0)))%nat -> Forall (fun op => acts_on op <> Some k) ops2 ->
  observed (hrun ops2 (hrun ops1 heap0)) k = observed (hrun ops1 heap0) k.
Proof. exact memories_independent. Qed.
Print Assumptions C53_memories_independent_partial.

Theorem C53_copy_looks_like_original_partial : forall ops m v,
  Forall not_inplace ops -> observed (hrun ops heap0) m = Some v ->
  let h := hrun ops heap0 in
  observed (hstep h (HCopy m)) (List.length (objs h)) = Some v /\
  forall k, (k < List.length (objs h))%nat -> observed (hstep h (HCopy m)) k = observed h k.
Proof. exact copy_equal. Qed.
Print Assumptions C53_copy_looks_like_original_partial.

(** Every memory goes through the states that its own calls give it. *)
Theorem C53_memories_are_values_partial : forall ops,
  Forall not_inplace ops -> wf_heap (hrun ops heap0) /\ values (hrun ops heap0) = vrun ops [].
Proof. exact hrun_value. Qed.
Print Assumptions C53_memories_are_values_partial.

Theorem C53_shared_array_refuted : exists ops k,
  (k < List.length (objs (hrun ops heap0)))%nat /\
  exists op, acts_on op <> Some k /\ observed (hstep (hrun ops heap0) op) k <> observed (hrun ops heap0) k.
Proof.
  exists [HNew; HAdd 0 ex_obj 1; HCopy 0], 0%nat. split; [simpl; lia|].
  exists (HInplace 1 ex_obj 0 7). split; [discriminate|]. intros H. discriminate H.
Qed.
Print Assumptions C53_shared_array_refuted.

Example C53_example :
  let ops1 := [HNew; HAdd 0 ex_obj 1; HStrength 0 (VStr "red") ex_obj None false; HCopy 0] in
  let ops2 := [HAdd 1 ex_obj' 2; HAdd 1 ex_fact 3; HDel 1 ex_fact; HActivation 1 ex_obj 5; HCopy 1; HAdd 2 ex_fact 4] in
  Forall not_inplace ops1 /\ Forall not_inplace ops2 /\ (0 < List.length (objs (hrun ops1 heap0)))%nat /\
  Forall (fun op => acts_on op <> Some 0%nat) ops2 /\
  observed (hrun ops2 (hrun ops1 heap0)) 0 <> observed (hrun ops2 (hrun ops1 heap0)) 1.
Proof. cbv zeta. repeat split; repeat constructor; discriminate. Qed.

(** ** C54 *)

(** Full statement: DecMem(cs) is a memory with every chunk of [cs] stored at time 0.  Missing:
    collections whose first chunk has exactly two slots, which are rejected. *)
Theorem C54_initialised_with_chunks_partial : forall cs,
  (forall c rest, cs = c :: rest -> List.length (cslots c) <> 2%nat) ->
  exists m, dm_init cs = Ok m /\ dm_ok m /\
    (forall d, in_memory m d <-> exists c, In c cs /\ same_entry c d) /\
    forall d, in_memory m d -> exists q, dm_times m d = Some [q] /\ (q == 0)%Q.
Proof. exact init_spec. Qed.
Print Assumptions C54_initialised_with_chunks_partial.

(** No collection that starts with a chunk with two slots is accepted. *)
Theorem C54_two_slots_refuted :
  (forall (c : chunk) rest, List.length (cslots c) = 2%nat -> dm_init (c :: rest) = Err EActr) /\
  exists c : chunk, List.length (cslots c) = 2%nat.
Proof.
  split; [|exists ex_obj; reflexivity]. intros c rest H. unfold dm_init. rewrite H. reflexivity.
Qed.
Print Assumptions C54_two_slots_refuted.

Example C54_example :
  let cs := [MkChunk "o" [("a", plain (VStr "1"))]; ex_obj; ex_obj'] in
  (forall c rest, cs = c :: rest -> List.length (cslots c) <> 2%nat) /\
  exists m, dm_init cs = Ok m /\ List.length (dmdata m) = 2%nat.
Proof. cbv zeta. split; [intros c rest H; injection H as <- <-; discriminate|]. eexists. split; reflexivity. Qed.
