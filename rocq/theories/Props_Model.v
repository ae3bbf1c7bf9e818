(** Property theorems about ACTRModel: C27, C47, C48, C64, C66, C68. *)
From Verif Require Import Base Chunks DecMem Buffers Model ModelSpec ModelFacts.
Local Open Scope string_scope.
Local Open Scope list_scope.
Local Open Scope nat_scope.

(** ** C27 *)

(** [sims h]: the table of a model after the calls [h] of set_similarities.  It is symmetric; the
    similarity is the value of the last accepted call for the two values in either order, or minus
    the mismatch penalty if there is none. *)
Theorem C27_similarities : forall h v w mp,
  get_similarity (sims h) v w mp = get_similarity (sims h) w v mp /\
  (forall q, last_call h v w q -> get_similarity (sims h) v w mp = q) /\
  (never_called h v w -> get_similarity (sims h) v w mp = (- mp)%Q) /\
  ((0 <= mp)%Q -> (get_similarity (sims h) v w mp <= 0)%Q).
Proof. exact similarities. Qed.
Print Assumptions C27_similarities.

(** One of the two always applies. *)
Theorem C27_cases : forall h v w, (exists q, last_call h v w q) \/ never_called h v w.
Proof. exact last_never. Qed.
Print Assumptions C27_cases.

(** Exactly the positive values are rejected, and then nothing is changed. *)
Theorem C27_positive_rejected : forall t v w q,
  ((0 < q)%Q -> set_similarities t v w q = (t, Err EActr)) /\ ((q <= 0)%Q -> snd (set_similarities t v w q) = Ok tt).
Proof. exact (fun t v w q => conj (positive_rejected t v w q) (other_accepted t v w q)). Qed.
Print Assumptions C27_positive_rejected.

Example C27_example :
  let cat := VStr "cat" in let dog := VStr "dog" in
  let h := [(cat, dog, -1 # 2); (dog, cat, -3 # 10); (cat, dog, 5); (cat, cat, -1)]%Q in
  last_call h cat dog (-3 # 10) /\ get_similarity (sims h) cat dog 1 = (-3 # 10)%Q.
Proof.
  split; [|reflexivity]. exists [(VStr "cat", VStr "dog", -1 # 2)%Q], (VStr "dog"), (VStr "cat"), [(VStr "cat", VStr "dog", 5); (VStr "cat", VStr "cat", -1)]%Q.
  split; [reflexivity|]. split; [discriminate|]. split; [right; split; reflexivity|].
  intros a b r [[= <- <- <-]|[[= <- <- <-]|[]]] L; [elim L; reflexivity|]. intros [[_ H]|[H _]]; discriminate.
Qed.

(** ** C68 *)

(** Full statement: a simulation uses the similarities of its model.  This is false if a simulation of another
    model has been prepared in the meantime. *)
Theorem C68_own_similarities_refuted : exists l1 l2 k v w,
  valid (l1 ++ SSimulation k :: l2) /\
  get_similarity (used_table (sims_run (l1 ++ SSimulation k :: l2))) v w 1 <> get_similarity (sims (calls_of k (l1 ++ SSimulation k :: l2))) v w 1.
Proof.
  exists [SNewModel; SNewModel; SSetSimilarity 0 (VStr "cat") (VStr "dog") (-1 # 2)], [SSimulation 1], 0, (VStr "cat"), (VStr "dog").
  split; [|vm_compute; discriminate].
  intros l1 o l2 E. repeat (destruct l1 as [|? l1]; [injection E as <- <-; cbn; auto with arith|injection E as <- E]). destruct l1; discriminate.
Qed.
Print Assumptions C68_own_similarities_refuted.

(** It is true of the simulation that was prepared last; changes made later count, too. *)
Theorem C68_own_similarities_partial : forall l1 k l2 v w mp,
  valid (l1 ++ SSimulation k :: l2) -> existsb is_simulation l2 = false ->
  get_similarity (used_table (sims_run (l1 ++ SSimulation k :: l2))) v w mp = get_similarity (sims (calls_of k (l1 ++ SSimulation k :: l2))) v w mp.
Proof. exact (fun l1 k l2 v w mp V N => f_equal (fun t => get_similarity t v w mp) (latest_table l1 k l2 V N)). Qed.
Print Assumptions C68_own_similarities_partial.

Example C68_example : valid [SNewModel; SSetSimilarity 0 (VStr "a") (VStr "b") (-1); SSimulation 0] /\
  get_similarity (used_table (sims_run ([SNewModel; SSetSimilarity 0 (VStr "a") (VStr "b") (-1 # 3)] ++ [SSimulation 0]))) (VStr "b") (VStr "a") 1 = (-1 # 3)%Q.
Proof.
  split; [|reflexivity]. intros l1 o l2 E. repeat (destruct l1 as [|? l1]; [injection E as <- <-; cbn; auto with arith|injection E as <- E]). destruct l1; discriminate.
Qed.

(** ** C47 *)

Theorem C47_unknown_rejected : forall given name,
  In name (dkeys given) -> dget documented name = None -> init_parameters given = Err EActr.
Proof. exact parameters_unknown. Qed.
Print Assumptions C47_unknown_rejected.

Theorem C47_values_and_defaults : forall given, NoDup (dkeys given) ->
  (forall name, In name (dkeys given) -> dget documented name <> None) ->
  exists ps, init_parameters given = Ok ps /\
    forall name, show_parameter pheap0 ps name = match dget given name with Some v => show_value pheap0 v | None => dget documented name end.
Proof. exact parameters_known. Qed.
Print Assumptions C47_values_and_defaults.

Example C47_example : init_parameters [("colour", PBool true)] = Err EActr /\
  exists ps, init_parameters [("subsymbolic", PBool true); ("decay", PNum (3 # 10))] = Ok ps /\
    show_parameter pheap0 ps "decay" = Some (ShNum (3 # 10)) /\ show_parameter pheap0 ps "utility_alpha" = Some (ShNum (2 # 10)).
Proof. split; [reflexivity|]. eexists. split; [reflexivity|]. split; reflexivity. Qed.

(** ** C66 *)

(** Full statement: changing a parameter of one model leaves other models alone.  This is false for the default value of
    buffer_spreading_activation, a dictionary that all models share, also those made later. *)
Theorem C66_parameters_shared_refuted : exists ps ps' h,
  init_parameters [] = Ok ps /\ init_parameters [("subsymbolic", PBool true)] = Ok ps' /\
  h = write_parameter pheap0 ps "buffer_spreading_activation" "g" 1 /\
  show_parameter pheap0 ps' "buffer_spreading_activation" = Some (ShDict []) /\
  show_parameter h ps' "buffer_spreading_activation" = Some (ShDict [("g", 1%Q)]).
Proof. eexists _, _, _. split; [reflexivity|]. split; [reflexivity|]. split; [reflexivity|]. split; reflexivity. Qed.
Print Assumptions C66_parameters_shared_refuted.

(** It is true if the two parameters are not one object, for instance if both models are given their own dictionaries. *)
Theorem C66_parameters_shared_partial : forall h ps name buffer q ps' name',
  (forall r, dget ps name = Some (PRef r) -> dget ps' name' <> Some (PRef r)) ->
  show_parameter (write_parameter h ps name buffer q) ps' name' = show_parameter h ps' name'.
Proof. exact write_frame. Qed.
Print Assumptions C66_parameters_shared_partial.

Example C66_example : exists ps ps', init_parameters [("buffer_spreading_activation", PRef 1)] = Ok ps /\ init_parameters [("buffer_spreading_activation", PRef 2)] = Ok ps' /\
  show_parameter (write_parameter [[]; []; [("g", 2%Q)]] ps "buffer_spreading_activation" "g" 1) ps' "buffer_spreading_activation" = Some (ShDict [("g", 2%Q)]) /\
  show_parameter (write_parameter [[]; []; [("g", 2%Q)]] ps "buffer_spreading_activation" "g" 1) ps "buffer_spreading_activation" = Some (ShDict [("g", 1%Q)]).
Proof. eexists _, _. split; [reflexivity|]. split; [reflexivity|]. split; reflexivity. Qed.

(** ** C48 *)

(** Full statement: each call of set_decmem adds a memory.  This is false: from a new model on there is always
    exactly one memory, the last one. *)
Theorem C48_memories_added_refuted : forall dms w w' a',
  (w', a') = fold_left (fun s dm => set_decmem (fst s) (snd s) dm) dms (new_model w) ->
  exists m, adecmems a' = [("decmem", m)] /\ nth_error (mems w') m = Some (last dms dm_empty).
Proof. exact set_decmem_replaces. Qed.
Print Assumptions C48_memories_added_refuted.

(** It is true if there are several memories already (put there directly) and the name decmemN is free. *)
Theorem C48_memories_added_partial : forall w a dm w' a',
  set_decmem w a dm = (w', a') -> 2 <= List.length (adecmems a) ->
  dget (adecmems a) ("decmem" ++ str_of_nat (List.length (adecmems a)))%string = None ->
  List.length (adecmems a') = S (List.length (adecmems a)) /\
  (forall name m, dget (adecmems a) name = Some m -> dget (adecmems a') name = Some m) /\
  exists name m, dget (adecmems a) name = None /\ dget (adecmems a') name = Some m /\ nth_error (mems w') m = Some dm.
Proof. exact set_decmem_adds. Qed.
Print Assumptions C48_memories_added_partial.

(** The name may be taken, even if it has been given by the user; then the memory is replaced. *)
Example C48_example :
  let w := MkW [dm_empty; dm_empty] [] [] in
  adecmems (snd (set_decmem w (MkModel [("decmem", 0); ("other", 1)] [] []) dm_empty)) = [("decmem", 0); ("other", 1); ("decmem2", 2)] /\
  adecmems (snd (set_decmem w (MkModel [("decmem", 0); ("decmem2", 1)] [] []) dm_empty)) = [("decmem", 0); ("decmem2", 2)].
Proof. split; reflexivity. Qed.

(** ** C64 *)

(** Full statement: if only one of several memories has chunks in it, buffers without a memory use it.  This is false:
    the simulation cannot be prepared (ValueError). *)
Theorem C64_only_filled_memory_refuted : forall w a name m env,
  2 <= List.length (adecmems a) -> NoDup (map snd (adecmems a)) ->
  In (name, m) (adecmems a) -> filled w m -> (forall name' m', In (name', m') (adecmems a) -> filled w m' -> m' = m) ->
  (exists p, In p (abuffers a) /\ needy w (snd p)) -> prepare_simulation w a env = (w, Err EValue).
Proof. exact one_filled_simulation. Qed.
Print Assumptions C64_only_filled_memory_refuted.

(** What holds: an only memory is used by all buffers, and if every buffer has a memory with chunks,
    buffers keep their memories. *)
Theorem C64_only_memory_partial : forall w a name m env,
  adecmems a = [(name, m)] -> abuffers a <> [] ->
  Forall (fun p => snd p < List.length (bufs w)) (abuffers a) -> NoDup (dkeys (abuffers a)) ->
  exists w' a' bs dms, prepare_simulation w a env = (w', Ok (a', bs, dms)) /\
    (forall x, In x (dkeys (abuffers a)) -> dget dms x = Some m) /\
    forall i b, nth_error (bufs w) i = Some b -> In i (map snd (abuffers a)) -> nth_error (bufs w') i = Some (set_dm b (Some m)).
Proof. exact one_memory_simulation. Qed.
Print Assumptions C64_only_memory_partial.

Theorem C64_several_memories_partial : forall w a env, 2 <= List.length (adecmems a) -> abuffers a <> [] -> NoDup (dkeys (abuffers a)) ->
  (forall p, In p (abuffers a) -> ~ needy w (snd p)) ->
  exists w' a' bs dms, prepare_simulation w a env = (w', Ok (a', bs, dms)) /\
    forall i b, nth_error (bufs w) i = Some b -> nth_error (bufs w') i = Some b.
Proof. exact several_simulation. Qed.
Print Assumptions C64_several_memories_partial.

(** A new model with a second memory, which has a chunk in it. *)
Example C64_example :
  let wa := new_model (MkW [] [] []) in
  let wb := put_decmem (fst wa) (snd wa) "second" (dm_add dm_empty (MkChunk "t" [("a", plain (VStr "x"))]) 0) in
  filled (fst wb) 1 /\ needy (fst wb) 0 /\ ~ filled (fst wb) 0 /\ snd (prepare_simulation (fst wb) (snd wb) false) = Err EValue /\
  exists w' a' bs dms, prepare_simulation (fst wa) (snd wa) true = (w', Ok (a', bs, dms)) /\
    bs = [("g", 0); ("retrieval", 1); ("manual", 2); ("visual", 3); ("visual_location", 4)] /\ dms = [("g", 0); ("retrieval", 0)].
Proof.
  cbn zeta. split; [eexists; split; [reflexivity|discriminate]|]. split; [exact I|]. split; [intros (dm & [= <-] & H); apply H; reflexivity|].
  split; [reflexivity|]. eexists _, _, _, _. split; [reflexivity|]. split; reflexivity.
Qed.
