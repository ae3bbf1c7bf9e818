(** Concrete chunks: examples that meet the hypotheses of the theorems about chunks, and
    witnesses for claims that are false of the code. *)
From Verif Require Import Chunks ChunkSpec ChunkFacts ChunkMatch ChunkGround.
Local Open Scope string_scope.

(** ** Chunks used in the examples *)
Definition ex_obj : chunk := MkChunk "object" [("color", plain (VStr "red")); ("shape", None)].
Definition ex_obj' : chunk := MkChunk "thing" [("color", plain (VStr "red")); ("weight", plain (VStr "None"))].
Definition ex_fact : chunk := MkChunk "goal" [("arg1", plain (VChunk ex_obj)); ("arg2", plain (VStr "5"))].
Definition ex_fact' : chunk :=
  MkChunk "memory" [("arg1", plain (VChunk ex_obj')); ("arg2", plain (VStr "5")); ("arg3", None)].
Definition ex_big : chunk :=
  MkChunk "memory" [("arg1", plain (VChunk ex_obj')); ("arg2", plain (VStr "5")); ("arg3", plain (VStr "7"))].
Definition ex_pat : chunk :=
  MkChunk "goal" [("arg1", None); ("arg2", Some (MkVV (VStr "5") None [VStr "6"] [])); ("arg3", Some (MkVV VNone None [VStr "8"] []))].
(** [arg1 =x  arg2 =y  arg3 ~=x] *)
Definition ex_varpat : chunk :=
  MkChunk "goal" [("arg1", Some (MkVV VNone (Some "x") [] []));
                  ("arg2", Some (MkVV VNone (Some "y") [] []));
                  ("arg3", Some (MkVV VNone None [] ["x"]))].

Ltac wf_tac :=
  repeat match goal with
  | |- wf_chunk _ => constructor
  | |- wf_value _ => constructor
  | |- fact _ => constructor
  | |- const_value _ => constructor
  | |- increasing _ => progress simpl
  | |- Forall _ _ => constructor
  | |- slot_lt _ _ => reflexivity
  | |- _ /\ _ => split
  | |- True => exact I
  | |- const_pattern _ => intros ? ? ?
  | |- no_variables _ => intros ? ? ?
  | |- forall _, _ => intros
  | |- _ = _ => reflexivity
  | H : In _ (cslots _) |- _ => progress simpl in H
  | H : In _ _ |- _ => progress simpl in H
  | H : _ \/ _ |- _ => destruct H as [H|H]
  | H : False |- _ => destruct H
  | H : (_, _) = (_, _) |- _ => injection H as <- <-; simpl in *
  | H : (_, None) = (_, Some _) |- _ => discriminate H
  | H : VStr _ = _ |- _ => subst
  | H : VChunk _ = ?v |- _ => is_var v; subst v
  | H : _ = _ |- _ => first [discriminate H | injection H; intros; subst; clear H; simpl in *]
  end.

Definition ex_small : chunk := MkChunk "goal" [("arg1", plain (VChunk ex_obj)); ("arg2", None)].
Definition ex_b : bindings := MkB [("x", VChunk ex_obj)] [("y", [VStr "9"])].

Lemma varpat_example : wf_chunk ex_varpat /\ const_pattern ex_varpat /\ good_bindings ex_b /\
  one_empty ex_b ex_varpat ex_big /\ names_safe ex_b ex_varpat /\ none_alone ex_varpat /\
  chunk_le ex_b ex_varpat ex_big =
    (MkB [("x", VChunk ex_obj); ("y", VStr "5")] [("y", [VStr "9"]); ("x", [VStr "7"])], true).
Proof.
  split; [wf_tac|]. split; [wf_tac|]. split.
  { split; [|split].
    - intros x v H. apply dget_In in H. destruct H as [H|[]]. injection H as <- <-. split; wf_tac.
    - intros x l v H Hin. apply dget_In in H. destruct H as [H|[]]. injection H as <- <-.
      destruct Hin as [<-|[]]. split; constructor.
    - intros x l v u H Hin Hv. apply dget_In in H. destruct H as [H|[]]. injection H as <- <-.
      discriminate. }
  split.
  { left. split; [|split].
    - intros x v H. apply dget_In in H. destruct H as [H|[]]. injection H as <- <-. discriminate.
    - intros x l v H Hin. apply dget_In in H. destruct H as [H|[]]. injection H as <- <-.
      destruct Hin as [<-|[]]. discriminate.
    - intros n Hin. simpl in Hin. intuition (subst; discriminate). }
  split.
  { intros n w x Hin E _. left. simpl in Hin. destruct Hin as [H|[H|[H|[]]]]; injection H as <- <-; simpl in E;
      try discriminate; injection E as <-; reflexivity. }
  split; [|reflexivity].
  intros n w Hin E. simpl in Hin. destruct Hin as [H|[H|[H|[]]]]; injection H as <- <-; discriminate.
Qed.

Lemma varpat_example2 : respects (dget (bpos (fst (chunk_le ex_b ex_varpat ex_big)))) ex_b /\
  satisfies (dget (bpos (fst (chunk_le ex_b ex_varpat ex_big)))) ex_varpat ex_big.
Proof.
  destruct varpat_example as (W & C & G & O & N & A & E).
  assert (We : wf_chunk ex_big) by wf_tac. assert (Fe : fact ex_big) by wf_tac.
  destruct (chunk_le_sound W C We Fe G O N A E) as (S & G' & K). rewrite E. split; [|exact S]. split.
  - intros x v H. exists v. split; [apply K; exact H|].
    assert (Ev : v = VChunk ex_obj). { apply dget_In in H. destruct H as [H|[]]. injection H as _ <-. reflexivity. }
    subst. apply same_content_refl.
  - intros x l u v H Hin Hv. destruct K as [_ K]. destruct (K x l H) as (l' & Hl' & Hincl).
    destruct G' as (_ & _ & G'). apply (G' x l'); auto.
Qed.

Ltac clos := repeat split; wf_tac.

(** A == B with A demanding 'None': not transitive, not interchangeable. *)
Definition w_none : chunk := MkChunk "t" [("arg2", plain (VStr "None"))].
Definition w_unset : chunk := MkChunk "t" [("arg2", None)].
Definition w_v2 : chunk := MkChunk "t" [("arg2", plain (VStr "v2"))].

Lemma none_not_transitive : exists c d e,
  wf_chunk c /\ fact c /\ wf_chunk d /\ fact d /\ wf_chunk e /\ fact e /\
  snd (chunk_le nobind c d) = true /\ snd (chunk_le nobind d e) = true /\ snd (chunk_le nobind c e) = false.
Proof. exists w_none, w_unset, w_v2. clos. Qed.

Lemma none_not_interchangeable : exists c c' d,
  wf_chunk c /\ wf_chunk c' /\ wf_chunk d /\ fact c /\ fact c' /\ fact d /\
  chunk_eqb nobind c c' = true /\ snd (chunk_le nobind c d) <> snd (chunk_le nobind c' d).
Proof. exists w_none, w_unset, w_v2. clos; try discriminate. Qed.

(** [=xy] with =x and =y bound to 1 and =xy bound to 2 matches a slot holding 1. *)
Definition w_long : chunk := MkChunk "t" [("a", Some (MkVV VNone (Some "xy") [] []))].
Definition w_one : chunk := MkChunk "t" [("a", plain (VStr "1"))].
Definition w_b : bindings := MkB [("x", VStr "1"); ("y", VStr "1"); ("xy", VStr "2")] [].

Lemma w_b_vals x v : dget (bpos w_b) x = Some v -> v = VStr "1" \/ v = VStr "2".
Proof.
  intros H. apply dget_In in H. destruct H as [H|[H|[H|[]]]]; injection H as _ <-; auto.
Qed.

Lemma long_names_unsound : exists b c d b',
  wf_chunk c /\ const_pattern c /\ wf_chunk d /\ fact d /\ good_bindings b /\
  one_empty b c d /\ none_alone c /\
  chunk_le b c d = (b', true) /\ ~ satisfies (dget (bpos b')) c d.
Proof.
  exists w_b, w_long, w_one, w_b.
  split; [wf_tac|]. split; [wf_tac|]. split; [wf_tac|]. split; [wf_tac|]. split.
  { split; [|split].
    - intros x v H. apply w_b_vals in H. destruct H as [->| ->]; split; constructor.
    - intros x l v H. discriminate.
    - intros x l v u H. discriminate. }
  split.
  { left. split; [|split].
    - intros x v H. apply w_b_vals in H. destruct H as [->| ->]; discriminate.
    - intros x l v H. discriminate.
    - intros n Hin. simpl in Hin. destruct Hin as [<-|[]]. discriminate. }
  split.
  { intros n w Hin E. simpl in Hin. destruct Hin as [H|[]]. injection H as <- <-. discriminate. }
  split; [reflexivity|].
  intros S. destruct (S "a" (MkVV VNone (Some "xy") [] [])) as (S1 & _); [simpl; auto|].
  destruct (S1 "xy") as (v & Hv & [[H _]|(_ & _ & H)]); [reflexivity|discriminate| |]; injection Hv as <-; inversion H.
Qed.

Lemma none_incomplete : exists b c d f,
  wf_chunk c /\ const_pattern c /\ wf_chunk d /\ fact d /\ good_bindings b /\ one_empty b c d /\
  respects f b /\ satisfies f c d /\ snd (chunk_le b c d) = false.
Proof.
  exists nobind, w_none, w_one, (fun _ => None).
  split; [wf_tac|]. split; [wf_tac|]. split; [wf_tac|]. split; [wf_tac|]. split.
  { split; [|split]; intros x; intros; discriminate. }
  split.
  { right. split; [intros x v H; discriminate|]. split; [intros x l v H; discriminate|].
    intros n Hin. simpl in Hin. destruct Hin as [<-|[]]. discriminate. }
  split; [split; intros x; intros; discriminate|]. split; [|reflexivity].
  intros n w Hin. simpl in Hin. destruct Hin as [H|[]]. injection H as <- <-. simpl.
  split; [discriminate|]. split; [intros x v []|]. split; [|intros v []].
  intros _. left. split; constructor.
Qed.
