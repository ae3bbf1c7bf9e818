(** Property theorems about buffers: C10 to C15, C17. *)
From Verif Require Import BaseFacts Chunks TypeFacts ResolveFacts DecMem DecMemFacts Buffers BufferFacts ModifyFacts ChunkWitness.
From Verif Require Import ChunkSpec.
Local Open Scope string_scope.

(** A world with one memory, a goal buffer and a retrieval buffer attached to it, and a visual
    location buffer without memory; all three hold a chunk. *)
Definition ex_history : list op :=
  [ONewMem; ONew KGoal (Some 0%nat) [] 0; ONew KRetrieval (Some 0%nat) [] 2; ONew KLocation None [] 1;
   OMemAdd 0 ex_fact 0; OAdd 0 (AChunk ex_fact) 1 None None; OAdd 1 (AChunk ex_fact) 1 None None;
   OAdd 1 (AChunk ex_big) 2 None None; OAdd 2 (AChunk ex_obj) 2 None None].
Definition ex_world : world := run ex_history world0.

(** ** C10 *)

Theorem C10_at_most_one_chunk : forall ops i l,
  holds_chunks (run ops world0) i l -> l = [] \/ exists c, l = [c].
Proof. exact buffer_at_most_one. Qed.
Print Assumptions C10_at_most_one_chunk.

Example C10_example : holds_chunks ex_world 0 [ex_fact] /\ holds_chunks ex_world 1 [ex_big] /\
  holds_chunks (run [OModify 1 ex_varpat nobind None] ex_world) 1 [].
Proof. repeat split; eexists; split; reflexivity. Qed.

(** ** C11 *)

(** Full statement: every mentioned slot has the resolved value, every other slot its old value.
    Missing: slots with the comparison signs '<' and '>' (see the refutation); and an unmentioned
    empty slot becomes the string 'None'. *)
Theorem C11_modify_exact_partial : forall w i o bs s w' r c,
  holds_chunks w i [c] -> names_distinct o -> NoDup (dkeys (bpos bs)) -> marks_free bs o ->
  step w (OModify i o bs s) = (w', Ok r) ->
  exists c', holds_chunks w' i [c'] /\ ctype c' = ctype o /\
    (forall n v, mentions o n v -> ~ illegal bs true v /\
       exists u, dget (cslots c') n = Some (Some u) /\ resolves_to bs v u) /\
    (forall n u, unmentioned o n -> dget (cslots c) n = Some (Some u) -> dget (cslots c') n = Some (Some u)) /\
    (forall n, unmentioned o n -> dget (cslots c) n = Some None -> dget (cslots c') n = Some (plain (VStr "None"))) /\
    (forall n, unmentioned o n -> ~ In n (dkeys (cslots c)) -> In n (dkeys (cslots c')) -> dget (cslots c') n = Some None) /\
    mems w' = mems w /\ other_buffers_same w w' i.
Proof. exact modify_exact. Qed.
Print Assumptions C11_modify_exact_partial.

(** Values are kept up to the different ways of writing an empty slot. *)
Theorem C11_modify_frame_partial : forall w i o bs s w' r c c' n,
  holds_chunks w i [c] -> names_distinct o -> NoDup (dkeys (bpos bs)) -> marks_free bs o ->
  step w (OModify i o bs s) = (w', Ok r) -> holds_chunks w' i [c'] -> unmentioned o n ->
  slot_value c' n = slot_value c n \/ (is_empty (slot_value c' n) /\ is_empty (slot_value c n)).
Proof. exact modify_frame. Qed.
Print Assumptions C11_modify_frame_partial.

(** A legal modification within the slots of an existing type succeeds. *)
Theorem C11_modify_succeeds_partial : forall w i o bs s c ct,
  holds_chunks w i [c] -> NoDup (dkeys (bpos bs)) ->
  (forall n v, mentions o n v -> no_marks bs v /\ not_empty_bound bs v /\ ~ illegal bs true v) ->
  dget (wreg w) (ctype o) = Some ct ->
  (forall n, In n (dkeys (cslots c)) \/ In n (dkeys (cslots o)) -> In n (ctfields ct)) ->
  exists w', step w (OModify i o bs s) = (w', Ok None).
Proof. exact modify_succeeds. Qed.
Print Assumptions C11_modify_succeeds_partial.

(** Setting a slot to the string '>' does not give '>' but '>>>>'. *)
Theorem C11_comparison_sign_refuted : exists w i o bs s w' c c',
  holds_chunks w i [c] /\ names_distinct o /\ NoDup (dkeys (bpos bs)) /\
  step w (OModify i o bs s) = (w', Ok None) /\ holds_chunks w' i [c'] /\
  mentions o "color" (MkVV (VStr ">") None [] []) /\ slot_value c' "color" = VStr ">>>>".
Proof.
  set (o := MkChunk "object" [("color", plain (VStr ">"))]).
  set (w := MkW [] [MkBuf KGoal [ex_obj] None 0 [] [] None 0] init_registry).
  exists w, 0%nat, o, nobind, None, (fst (step w (OModify 0 o nobind None))), ex_obj,
    (MkChunk "object" [("color", plain (VStr ">>>>")); ("shape", plain (VStr "None"))]).
  split; [eexists; split; reflexivity|]. split; [repeat constructor; intros []|]. split; [constructor|].
  split; [reflexivity|]. split; [eexists; split; reflexivity|]. split; [|reflexivity].
  split; [left; reflexivity|]. left. split; discriminate.
Qed.
Print Assumptions C11_comparison_sign_refuted.

Definition ex_mod : chunk := MkChunk "goal" [("arg2", Some (MkVV VNone (Some "x") [] []))].
Definition ex_bs : bindings := MkB [("x", VStr "7")] [].
Example C11_example : exists w' c',
  holds_chunks ex_world 0 [ex_fact] /\ names_distinct ex_mod /\ NoDup (dkeys (bpos ex_bs)) /\ marks_free ex_bs ex_mod /\
  step ex_world (OModify 0 ex_mod ex_bs None) = (w', Ok None) /\ holds_chunks w' 0 [c'] /\
  dget (cslots c') "arg2" = Some (plain (VStr "7")) /\ dget (cslots c') "arg1" = dget (cslots ex_fact) "arg1".
Proof.
  eexists _, _. split; [eexists; split; reflexivity|]. split; [repeat constructor; intros []|]. split; [repeat constructor; intros []|].
  split.
  { intros n v [H _]. simpl in H. destruct H as [H|[]]. injection H as <- <-. split; [reflexivity|].
    intros x u E [H|[]]. injection H as <- <-. reflexivity. }
  split; [reflexivity|]. split; [eexists; split; reflexivity|]. split; reflexivity.
Qed.

(** ** C12 *)

(** The claim is false: every failed modification leaves the buffer empty, and the chunk is
    not in memory either. *)
Theorem C12_failed_modification_loses_chunk_partial : forall w i o bs s w' e c,
  holds_chunks w i [c] -> step w (OModify i o bs s) = (w', Err e) ->
  holds_chunks w' i [] /\ mems w' = mems w.
Proof. exact failed_modify_empties. Qed.
Print Assumptions C12_failed_modification_loses_chunk_partial.

(** A failed creation changes nothing. *)
Theorem C12_failed_creation_keeps_chunk_partial : forall w i o bs w' e,
  step w (OCreate i o bs) = (w', Err e) -> w' = w.
Proof. exact failed_create_keeps. Qed.
Print Assumptions C12_failed_creation_keeps_chunk_partial.

Theorem C12_buffer_kept_refuted : exists w i o bs s w' e c,
  holds_chunks w i [c] /\ step w (OModify i o bs s) = (w', Err e) /\ ~ holds_chunks w' i [c].
Proof.
  exists ex_world, 0%nat, ex_mod, nobind, None. eexists _, _, ex_fact.
  split; [eexists; split; reflexivity|]. split; [reflexivity|]. intros (b & E & H). simpl in E. injection E as <-. discriminate H.
Qed.
Print Assumptions C12_buffer_kept_refuted.

Example C12_example : exists w' e, step ex_world (OCreate 0 ex_mod nobind) = (w', Err e) /\ holds_chunks w' 0 [ex_fact].
Proof. eexists _, _. split; [reflexivity|]. eexists. split; reflexivity. Qed.

(** ** C13 *)

(** Full statement: for all buffers.  Missing: the motor buffer, whose inherited clear drops the
    chunk (refuted below). *)
Theorem C13_clear_conserves_partial : forall w i t h m dm c,
  holds_chunks w i [c] -> ~ of_kind w i KMotor -> harvested_to w i h m -> memory w m = Some dm ->
  exists w' dm', step w (OClear i t h) = (w', Ok None) /\
    holds_chunks w' i [] /\ memory w' m = Some dm' /\ recorded dm dm' c t /\
    other_memories_same w w' m /\ other_buffers_same w w' i.
Proof. exact clear_conserves. Qed.
Print Assumptions C13_clear_conserves_partial.

Theorem C13_clear_empty : forall w i t h, holds_chunks w i [] -> step w (OClear i t h) = (w, Ok None).
Proof. exact clear_empty. Qed.
Print Assumptions C13_clear_empty.

(** Without a memory the call fails and the chunk stays. *)
Theorem C13_clear_without_memory : forall w i t c b,
  nth_error (bufs w) i = Some b -> bkind b <> KMotor -> bdata b = [c] -> bdm b = None ->
  step w (OClear i t None) = (w, Err EAttr).
Proof. exact clear_without_memory. Qed.
Print Assumptions C13_clear_without_memory.

Theorem C13_motor_buffer_refuted : exists w i t m dm c,
  holds_chunks w i [c] /\ of_kind w i KMotor /\ harvested_to w i None m /\ memory w m = Some dm /\
  ~ in_memory dm c /\
  exists w', step w (OClear i t None) = (w', Ok None) /\ holds_chunks w' i [] /\ memory w' m = Some dm.
Proof.
  exists (MkW [dm_empty] [MkBuf KMotor [ex_obj] (Some 0%nat) 0 [] [] None 0] init_registry), 0%nat, 1%Q, 0%nat, dm_empty, ex_obj.
  split; [eexists; split; reflexivity|]. split; [eexists; split; reflexivity|]. split; [eexists; split; reflexivity|].
  split; [reflexivity|]. split; [intros (d & ts & [] & _)|].
  eexists. split; [reflexivity|]. split; [eexists; split; reflexivity|reflexivity].
Qed.
Print Assumptions C13_motor_buffer_refuted.

Example C13_example : exists dm, holds_chunks ex_world 1 [ex_big] /\ ~ of_kind ex_world 1 KMotor /\
  harvested_to ex_world 1 None 0 /\ memory ex_world 0 = Some dm /\ in_memory dm ex_fact /\ ~ in_memory dm ex_big.
Proof.
  eexists. split; [eexists; split; reflexivity|]. split; [intros (b & E & H); injection E as <-; discriminate H|].
  split; [eexists; split; reflexivity|]. split; [reflexivity|]. split.
  - eexists _, _. split; [left; reflexivity|reflexivity].
  - intros (d & ts & [H|[]] & E). injection H as <- <-. discriminate E.
Qed.

(** ** C14 *)

Theorem C14_add_saves_old_chunk : forall w i b t h s m dm old x,
  nth_error (bufs w) i = Some b -> saving (bkind b) -> bdata b = [old] ->
  harvested_to w i h m -> memory w m = Some dm ->
  exists w' dm', fst (step w (OAdd i x t h s)) = w' /\
    memory w' m = Some dm' /\ recorded dm dm' old t /\
    other_memories_same w w' m /\ other_buffers_same w w' i /\
    match x with
    | AChunk c => snd (step w (OAdd i x t h s)) = Ok None /\ holds_chunks w' i [c]
    | AOther => snd (step w (OAdd i x t h s)) = Err EType /\ holds_chunks w' i []
    end.
Proof. exact add_saves_old. Qed.
Print Assumptions C14_add_saves_old_chunk.

Theorem C14_add_to_empty_buffer : forall w i b t h s c,
  nth_error (bufs w) i = Some b -> saving (bkind b) -> bdata b = [] ->
  exists w', step w (OAdd i (AChunk c) t h s) = (w', Ok None) /\ holds_chunks w' i [c] /\
    mems w' = mems w /\ other_buffers_same w w' i.
Proof. exact add_to_empty. Qed.
Print Assumptions C14_add_to_empty_buffer.

(** Without a memory to save the old chunk in, nothing is changed. *)
Theorem C14_add_without_memory : forall w i b t s old x,
  nth_error (bufs w) i = Some b -> saving (bkind b) -> bdata b = [old] -> bdm b = None ->
  step w (OAdd i x t None s) = (w, Err EAttr).
Proof. exact add_without_memory. Qed.
Print Assumptions C14_add_without_memory.

Example C14_example : exists b dm, nth_error (bufs ex_world) 1 = Some b /\ saving (bkind b) /\ bdata b = [ex_big] /\
  harvested_to ex_world 1 None 0 /\ memory ex_world 0 = Some dm /\
  exists dm', memory (fst (step ex_world (OAdd 1 (AChunk ex_obj) 3 None None))) 0 = Some dm' /\ in_memory dm' ex_big.
Proof.
  eexists _, _. split; [reflexivity|]. split; [left; reflexivity|]. split; [reflexivity|]. split; [eexists; split; reflexivity|].
  split; [reflexivity|]. eexists. split; [reflexivity|]. eexists _, _. split; [right; left; reflexivity|reflexivity].
Qed.

(** ** C15 *)

(** The claim is false: adding to a goal buffer never touches any memory; the old chunk is lost. *)
Theorem C15_goal_add_never_saves_partial : forall w i b t h s x,
  nth_error (bufs w) i = Some b -> bkind b = KGoal ->
  mems (fst (step w (OAdd i x t h s))) = mems w /\
  holds_chunks (fst (step w (OAdd i x t h s))) i (match x with AChunk c => [c] | AOther => [] end).
Proof. exact goal_add_never_saves. Qed.
Print Assumptions C15_goal_add_never_saves_partial.

Theorem C15_goal_add_saves_refuted : exists w i b t old c m dm dm',
  nth_error (bufs w) i = Some b /\ bkind b = KGoal /\ bdata b = [old] /\ bdm b = Some m /\ memory w m = Some dm /\
  memory (fst (step w (OAdd i (AChunk c) t None None))) m = Some dm' /\ ~ in_memory dm' old.
Proof.
  exists (MkW [dm_empty] [MkBuf KGoal [ex_obj] (Some 0%nat) 0 [] [] None 0] init_registry), 0%nat.
  eexists _, 1%Q, ex_obj, ex_fact, 0%nat, _, _. repeat (split; [reflexivity|]). intros (d & ts & [] & _).
Qed.
Print Assumptions C15_goal_add_saves_refuted.

(** ** C17 *)

Theorem C17_memory_never_forgets : forall ops w m dm, memory w m = Some dm ->
  exists dm', memory (run ops w) m = Some dm' /\ extends dm dm'.
Proof. exact never_forgets. Qed.
Print Assumptions C17_memory_never_forgets.

Example C17_example : exists dm dm', memory (run [ONewMem; OMemAdd 0 ex_fact 0] world0) 0 = Some dm /\
  memory (run [OClear 1 4 None; OClear 0 5 None] ex_world) 0 = Some dm' /\
  List.length (times dm ex_fact) = 1%nat /\ List.length (times dm' ex_fact) = 3%nat /\ in_memory dm' ex_big.
Proof.
  eexists _, _. split; [reflexivity|]. split; [reflexivity|]. split; [reflexivity|]. split; [reflexivity|].
  eexists _, _. split; [right; left; reflexivity|reflexivity].
Qed.
