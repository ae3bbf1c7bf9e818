(** Copies of buffers.  Every theorem is proved in CopyFacts.v. *)
From Verif Require Import Base Chunks DecMem Buffers CopySpec CopyFacts.

(** ** C105 *)

(** Full statement: the copy of a buffer has a memory of its own, as documented.  False: clearing the copy of a retrieval
    buffer stores its chunk in the memory of the original. *)
Theorem C105_own_memory_refuted : exists ops i b t dm dm', let w := run ops world0 in
  nth_error (bufs w) i = Some b /\ bkind b = KRetrieval /\ bdm b = Some 0%nat /\ nth_error (mems w) 0 = Some dm /\
  nth_error (mems (run [OCopy i None; OClear (List.length (bufs w)) t None] w)) 0 = Some dm' /\ dmdata dm' <> dmdata dm.
Proof. exact memory_shared. Qed.
Print Assumptions C105_own_memory_refuted.
(** The settings of the buffer are not copied either. *)
Theorem C105_settings_refuted : exists ops i b w' b', nth_error (bufs (run ops world0)) i = Some b /\ step (run ops world0) (OCopy i None) = (w', Ok None) /\
  nth_error (bufs w') (List.length (bufs (run ops world0))) = Some b' /\ ~ same_buffer b b'.
Proof. exact settings_lost. Qed.
Print Assumptions C105_settings_refuted.
(** What is copied: after any history, a goal or retrieval buffer can be copied; the copy is a new buffer of the same class
    with the same chunk, and it uses the given memory, or else the same one.  Nothing else changes. *)
Theorem C105_copy_partial : forall ops i h b, nth_error (bufs (run ops world0)) i = Some b -> bkind b = KGoal \/ bkind b = KRetrieval ->
  let w := run ops world0 in exists w' b', step w (OCopy i h) = (w', Ok None) /\ nth_error (bufs w') (List.length (bufs w)) = Some b' /\ bkind b' = bkind b /\ bdata b' = bdata b /\
    bdm b' = (match h with Some m => Some m | None => bdm b end) /\ mems w' = mems w /\ forall j, (j < List.length (bufs w))%nat -> nth_error (bufs w') j = nth_error (bufs w) j.
Proof. exact copied_buffer. Qed.
Print Assumptions C105_copy_partial.
(** A buffer copied with a copy of its memory starts with the same chunk and the same memory contents. *)
Theorem C105_pair_partial : forall ops i m b dm, let w := run ops world0 in nth_error (bufs w) i = Some b -> bkind b = KGoal \/ bkind b = KRetrieval -> nth_error (mems w) m = Some dm ->
  exists b' dm', nth_error (bufs (copied_pair w i m)) (List.length (bufs w)) = Some b' /\ nth_error (mems (copied_pair w i m)) (List.length (mems w)) = Some dm' /\
    bkind b' = bkind b /\ bdata b' = bdata b /\ bdm b' = Some (List.length (mems w)) /\ dm' = dm.
Proof. exact copied_pair_start. Qed.
Print Assumptions C105_pair_partial.
(** From then on no call on the copies, or on what is made from them, changes a buffer or memory that was there before. *)
Theorem C105_original_kept_partial : forall ops0 i m b dm ops, let w := run ops0 world0 in nth_error (bufs w) i = Some b -> bkind b = KGoal \/ bkind b = KRetrieval -> nth_error (mems w) m = Some dm ->
  let w1 := copied_pair w i m in
  Forall (within (fun j => (List.length (bufs w) <= j)%nat) (fun k => (List.length (mems w) <= k)%nat)) ops ->
  (forall j, (j < List.length (bufs w))%nat -> nth_error (bufs (run ops w1)) j = nth_error (bufs w) j) /\
  (forall k, (k < List.length (mems w))%nat -> nth_error (mems (run ops w1)) k = nth_error (mems w) k).
Proof. exact copy_apart. Qed.
Print Assumptions C105_original_kept_partial.
(** And no call on other buffers and memories changes the copies. *)
Theorem C105_copy_kept_partial : forall ops0 i m b dm ops, let w := run ops0 world0 in nth_error (bufs w) i = Some b -> bkind b = KGoal \/ bkind b = KRetrieval -> nth_error (mems w) m = Some dm -> rooted w ->
  let w1 := copied_pair w i m in let j := List.length (bufs w) in let k := List.length (mems w) in
  Forall (within (fun x => x <> j) (fun x => x <> k)) ops ->
  nth_error (bufs (run ops w1)) j = nth_error (bufs w1) j /\ nth_error (mems (run ops w1)) k = nth_error (mems w1) k.
Proof. exact original_apart. Qed.
Print Assumptions C105_copy_kept_partial.
(** A retrieval buffer with one chunk; after copying, the copies are cleared, copied and filled, or the originals are. *)
Example C105_used : let w := run cx_ops world0 in exists b dm, nth_error (bufs w) 0 = Some b /\ bkind b = KRetrieval /\ nth_error (mems w) 0 = Some dm /\ rooted w /\
  Forall (within (fun j => (List.length (bufs w) <= j)%nat) (fun k => (List.length (mems w) <= k)%nat)) cx_later /\
  Forall (within (fun x => x <> List.length (bufs w)) (fun x => x <> List.length (mems w))) [OClear 0 3 None; OMemAdd 0 cx_chunk 4] /\
  mems (run cx_later (copied_pair w 0 0)) <> mems (copied_pair w 0 0) /\ mems (run [OClear 0 3 None; OMemAdd 0 cx_chunk 4] (copied_pair w 0 0)) <> mems (copied_pair w 0 0).
Proof. exact copies_used. Qed.
