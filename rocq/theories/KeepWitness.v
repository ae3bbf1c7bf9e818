(** A retrieval during which another rule fires. *)
From Coq Require Import Lia.
From Verif Require Import Base BaseFacts Chunks DecMem Buffers Productions ProdSpec Sim SimSpec SimFacts StoryFacts FreeWitness SimWitness KeepSpec.
Local Open Scope string_scope.
Local Open Scope list_scope.

Definition requestedb (n : string) (S : sim) : bool :=
  existsb (fun x => match proc_name x with Some m => String.eqb m n | None => false end) (match early S with Some l => l | None => [] end ++ sprocs (ss S)).
Lemma requestedb_no n S : requestedb n S = false -> ~ requested n S.
Proof.
  intros H (x & Hx & Ex). assert (T : requestedb n S = true); [|congruence]. unfold requestedb. apply existsb_exists. exists x. split; [exact Hx|]. rewrite Ex. apply String.eqb_refl.
Qed.
Definition chosenb (n : string) (p : nat) (S : sim) (q : nat) : bool :=
  Nat.eqb q p || match nth_error (prs S) q with Some r => match pkind r with Some (GExtra m) => String.eqb m n | _ => false end | None => false end.
Definition interruptedb (n : string) (p : nat) (S : sim) : bool :=
  existsb (fun x => match ecbs x with Some l => existsb (fun c => match c with CInt q => chosenb n p S q | _ => false end) l | None => false end) (evs S).
Lemma interruptedb_no n p S : interruptedb n p S = false -> ~ KeepSpec.interrupted n p S.
Proof.
  intros H (ev & x & l & q & Hx & El & Hq & Hc). assert (T : interruptedb n p S = true); [|congruence]. unfold interruptedb. apply existsb_exists.
  exists x. split; [exact (nth_error_In _ _ Hx)|]. rewrite El. apply existsb_exists. exists (CInt q). split; [exact Hq|]. unfold chosenb.
  destruct Hc as [->|(r & Hr & Ek)]; [rewrite Nat.eqb_refl; reflexivity|]. rewrite Hr, Ek, String.eqb_refl. apply orb_true_r.
Qed.
Definition local_of (p : nat) (S : sim) : option (string * event * gen) :=
  match nth_error (prs S) p with Some r => match pcode r with KLocal false m e k => Some (m, e, k) | _ => None end | None => None end.
Lemma local_of_ok p m e k S : local_of p S = Some (m, e, k) -> in_progress m p e k S.
Proof.
  unfold local_of, in_progress. destruct (nth_error (prs S) p) as [r|]; [|discriminate]. destruct (pcode r) as [| | | | | | | | |[|] m' e' k'| | | | |] eqn:Ec; try discriminate. intros [= -> -> ->]. exists r. auto.
Qed.

Notation kx_init := (sim_init 0 (hx_state false) None).
(** The retrieval has begun, nothing is being done. *)
Definition kx_begin : sim :=
  until vx_oracle (fun S => match todo S, local_of 4 S with [], Some (m, e, _) => Z.eqb (etime e) 2500 && String.eqb m "retrieval" | _, _ => false end) 400 kx_init.
Definition kx_end : sim := sim_exec vx_oracle 400 kx_begin.
Lemma keep_used : exists e k,
  sim_runs vx_oracle kx_init kx_begin /\ todo kx_begin = [] /\ now kx_begin = 500%Z /\ in_progress "retrieval" 4 e k kx_begin /\ etime e = 2500%Z /\
  ~ KeepSpec.interrupted "retrieval" 4 kx_begin /\ sim_runs vx_oracle kx_begin kx_end /\ (forall X, sim_runs vx_oracle kx_begin X -> sim_runs vx_oracle X kx_end -> ~ requested "retrieval" X) /\
  In (1000%Z, "PROCEDURAL", WFired "two") (trace kx_end) /\ In (2500%Z, "retrieval", WText "RETRIEVED") (trace kx_end).
Proof.
  assert (A : (match local_of 4 kx_begin with Some (m, e, _) => Some (m, etime e) | None => None end) = Some ("retrieval", 2500%Z)) by (vm_compute; reflexivity).
  destruct (local_of 4 kx_begin) as [[[m e] k]|] eqn:E; [|discriminate]. injection A as -> Ee. exists e, k.
  split; [apply until_runs; constructor|]. split; [vm_compute; reflexivity|]. split; [vm_compute; reflexivity|]. split; [apply local_of_ok; exact E|]. split; [exact Ee|].
  split; [apply interruptedb_no; vm_compute; reflexivity|]. split; [apply sim_exec_init|]. split.
  - intros X R _. apply requestedb_no. assert (B : along vx_oracle (fun S => negb (requestedb "retrieval" S)) 400 kx_begin = true) by (vm_compute; reflexivity).
    pose proof (along_all _ _ _ _ _ B R) as C. cbv beta in C. apply negb_true_iff in C. exact C.
  - split; vm_compute; tauto.
Qed.
Lemma waits_used : exists e, sim_runs vx_oracle kx_init kx_begin /\ waits_for 4 e kx_begin /\ etime e = 2500%Z /\ sim_runs vx_oracle kx_begin kx_end /\
  sim_step vx_oracle kx_end = None /\ dead kx_end = None.
Proof.
  destruct keep_used as (e & k & A & _ & _ & (r & Hr & E) & Ee & _ & B & _). exists e. split; [exact A|]. split; [exists r; split; [exact Hr|left; eauto]|].
  split; [exact Ee|]. split; [exact B|]. split; vm_compute; reflexivity.
Qed.
