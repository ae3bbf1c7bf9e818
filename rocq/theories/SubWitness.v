(** Concrete situations for the theorems about activation. *)
From Coq Require Import Reals Qreals Lra.
From Verif Require Import BaseFacts Chunks ChunkFacts ChunkWitness TypeFacts ResolveFacts DecMem DecMemFacts FanFacts Buffers BufferFacts ModifyFacts RetrieveFacts Subsymbolic SubFacts.
From Verif Require Import ChunkSpec.
Local Open Scope string_scope.

(** Facts about counting, two of them presented at time 3. *)
Definition sx_count (a b : string) : chunk := MkChunk "count" [("first", plain (VStr a)); ("second", plain (VStr b))].
Definition sx_ops : list mem_op :=
  [MAdd (sx_count "1" "2") 0; MAdd (sx_count "2" "3") 1; MAdd (sx_count "2" "4") 2; MAdd (sx_count "2" "3") 3; MAdd (sx_count "2" "2") 3].
Definition sx_dm : decmem := mem_run sx_ops.
(** first =x *)
Definition sx_req : chunk := MkChunk "count" [("first", Some (MkVV VNone (Some "x") [] [])); ("second", None)].
Definition sx_bs : bindings := MkB [("x", VStr "2")] [].
Definition sx_goal : chunk := MkChunk "goal" [("now", plain (VStr "3")); ("next", plain (VStr "4")); ("done", None)].

(** Defaults of the library, with base-level learning; the goal spreads activation. *)
Definition sx_params (bll opt : bool) : sparams :=
  MkSP bll (1 / 2)%R opt 0%R (1 / 10)%R 1%R 2%R false 1 [] false false [(1%R, Some sx_goal); (1%R, None)].

Lemma sx_plain a b : no_empty_object (sx_count a b).
Proof. intros n w H. simpl in H. destruct H as [H|[H|[]]]; injection H as <- <-; discriminate. Qed.
Lemma sx_ops_ok : Forall op_ok sx_ops.
Proof. repeat (constructor; [apply sx_plain|]). constructor. Qed.

Lemma sx_setup : exists pat, request_setup init_registry sx_req sx_bs sx_dm pat.
Proof.
  eexists. split. { intros c ts H. simpl in H. destruct H as [H|[H|[H|[H|[]]]]]; injection H as <- <-; split; wf_tac. }
  split; [apply (run_inv sx_ops sx_ops_ok)|]. split; [apply init_ok|].
  split; [repeat constructor; simpl; intuition discriminate|]. split; [repeat constructor; intros []|].
  split. { intros n w [H _]. simpl in H. destruct H as [H|[H|[]]]; [|discriminate H]. injection H as <- <-. split; [reflexivity|]. intros x v E Hx.
           destruct Hx as [Hx|[]]. injection Hx as <- <-. reflexivity. }
  split. { split.
    - intros x v [H|[]]. injection H as <- <-. split; constructor.
    - intros n w [H _]. simpl in H. destruct H as [H|[H|[]]]; [|discriminate H]. injection H as <- <-; simpl; wf_tac. }
  eexists. reflexivity.
Qed.

(** The same fact put into memory twice at time 3. *)
Definition sx_twice : decmem := mem_run [MAdd (sx_count "2" "3") 1; MAdd (sx_count "2" "3") 3; MAdd (sx_count "2" "3") 3].
Definition sx_once : decmem := mem_run [MAdd (sx_count "2" "3") 1; MAdd (sx_count "2" "3") 3].

(** A chunk with the same value in two slots. *)
Definition sx_double : list mem_op := [MAdd (sx_count "2" "2") 0; MAdd (sx_count "2" "3") 0].

(** Without base-level learning and without sources, with threshold 1; the noise is 2 for the first entry and 3 for the second. *)
Definition sx_simple (thr : R) : sparams := MkSP false (1 / 2)%R false thr (1 / 10)%R 1%R 2%R false 1 [] false false [].
Definition sx_noise (k : nat) : R := match k with O => 2%R | _ => 3%R end.
Lemma sx_found : exists c, sub_retrieve (sx_simple 1) (fun _ => None) sx_noise 9 init_registry sx_req sx_bs RNone 0 [] (mem_run sx_double) = Ok (Some c, latency (1 / 10) 1 3)%R.
Proof.
  exists (sx_count "2" "3"). unfold sub_retrieve. cbv -[Rle_dec Rlt_dec Rplus Q2R latency Rdiv IZR]. 
  assert (E : Q2R 0 = 0%R) by (unfold Q2R; simpl; lra). unfold inject_Z in *. rewrite !E.
  destruct (Rle_dec _ _) as [L|L]; [|elim L; lra]. destruct (Rle_dec _ _) as [L'|L']; [|elim L'; lra].
  destruct (Rlt_dec _ _) as [L2|L2]; [|elim L2; lra]. do 2 f_equal. f_equal. lra.
Qed.
Lemma sx_missed : sub_retrieve (sx_simple 4) (fun _ => None) sx_noise 9 init_registry sx_req sx_bs RNone 0 [] (mem_run sx_double) = Ok (None, latency (1 / 10) 1 4)%R.
Proof.
  unfold sub_retrieve. cbv -[Rle_dec Rlt_dec Rplus Q2R latency Rdiv IZR]. 
  assert (E : Q2R 0 = 0%R) by (unfold Q2R; simpl; lra). unfold inject_Z in *. rewrite !E.
  destruct (Rle_dec _ _) as [L|L]; [lra|]. destruct (Rle_dec _ _) as [L'|L']; [lra|]. reflexivity.
Qed.
