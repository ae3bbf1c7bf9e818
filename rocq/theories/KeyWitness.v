(** Witnesses for Props_Key.v. *)
From Verif Require Import Base Chunks DecMem Buffers Productions ProdSpec ProdWitness Environment EnvSpec EnvFacts Sim SimSpec SimWitness EnvWitness KeySpec.
Local Open Scope string_scope.
Local Open Scope nat_scope.

Definition announcesb (S : sim) : option (nat * event) :=
  match todo S with
  | WRun p (Good _) :: _ => match nth_error (prs S) p with Some r => match pcode r with KLocal _ _ e _ => Some (p, e) | _ => None end | None => None end
  | _ => None
  end.
Lemma announcesb_ok p e S : announcesb S = Some (p, e) -> announces p e S.
Proof.
  unfold announcesb. destruct (todo S) as [|[|q [v|]|] l] eqn:E; try discriminate. destruct (nth_error (prs S) q) as [r|] eqn:Hr; [|discriminate]. destruct (pcode r) eqn:Ec; try discriminate.
  intros [= <- <-]. exists v, l, r. eauto 10.
Qed.
Definition pressedb (k : string) (S : sim) : bool := existsb (String.eqb k) (xtrig (sscreen (ss S))) && existsb (fun v => match v with VStr x => String.eqb x k | _ => false end) (skeys (ss S)).
Lemma pressedb_ok k S : pressedb k S = true -> hit (ss S).
Proof.
  unfold pressedb. intros H. apply andb_true_iff in H. destruct H as [A B]. apply existsb_exists in A. destruct A as (x & Hx & E). apply String.eqb_eq in E. subst x.
  apply existsb_exists in B. destruct B as (v & Hv & E). destruct v; try discriminate. apply String.eqb_eq in E. subst. exists k. auto.
Qed.
Definition failedb (p : nat) (S : sim) : bool :=
  match nth_error (prs S) p with
  | Some r => match nth_error (evs S) (pown r) with Some e => match evalue e with Some (Bad TRuntime) => true | _ => false end | None => false end
  | None => false
  end.
Lemma failedb_ok p S : failed p TRuntime S <-> failedb p S = true.
Proof.
  unfold failed, failedb. split.
  - intros (r & e & -> & -> & ->). reflexivity.
  - destruct (nth_error (prs S) p) as [r|]; [|discriminate]. destruct (nth_error (evs S) (pown r)) as [e|] eqn:He; [|discriminate]. intros H. exists r, e. repeat split; auto.
    destruct (evalue e) as [[v|t]|]; try discriminate. destruct t; try discriminate. reflexivity.
Qed.
Definition overb (S : sim) : bool := forallb (fun r => match pkind r with Some GEnv => match pcode r with KEnd => true | _ => false end | _ => true end) (prs S).
Lemma overb_ok S : env_over S <-> overb S = true.
Proof.
  unfold env_over, overb. rewrite forallb_forall, Forall_forall. split; intros H r Hr; specialize (H r Hr).
  - destruct (pkind r) as [[]|]; try reflexivity. rewrite (H eq_refl). reflexivity.
  - intros K. rewrite K in H. destruct (pcode r); try discriminate. reflexivity.
Qed.

Notation kx_before := (sim_exec wx_oracle 217 (kx_init kx_one kx_early)).
Notation kx_after := (sim_exec wx_oracle 507 (kx_init kx_many (kx_env "a" [1 # 10; 1 # 10]))).
Definition press_event (S : sim) : nat * event := match announcesb S with Some x => x | None => (0, MkEv 0 "" WUnknown) end.
Lemma press_event_ok S : match announcesb S with Some _ => true | None => false end = true -> announces (fst (press_event S)) (snd (press_event S)) S.
Proof. unfold press_event. destruct (announcesb S) as [[p e]|] eqn:E; [|discriminate]. intros _. apply announcesb_ok. exact E. Qed.
Lemma next_ok O S : match sim_step O S with Some _ => true | None => false end = true -> sim_step O S = Some (sim_exec O 1 S).
Proof. cbn [sim_exec]. destruct (sim_step O S); [reflexivity|discriminate]. Qed.

(** A press that the environment reacts to, and one when the environment is over. *)
Theorem key_cases :
  (exists S S' p e, sim_runs wx_oracle (kx_init kx_one kx_early) S /\ presses p e S /\ ewhat e = WText "KEY PRESSED: A" /\ sim_step wx_oracle S = Some S' /\ ~ failed p TRuntime S' /\ ~ env_over S) /\
  (exists S S' p e, sim_runs wx_oracle (kx_init kx_many (kx_env "a" [1 # 10; 1 # 10])) S /\ presses p e S /\ ewhat e = WText "KEY PRESSED: A" /\ sim_step wx_oracle S = Some S' /\ failed p TRuntime S' /\ env_over S).
Proof.
  split.
  - exists kx_before, (sim_exec wx_oracle 1 kx_before), (fst (press_event kx_before)), (snd (press_event kx_before)).
    split; [apply sim_exec_init|]. split; [split; [apply press_event_ok; vm_compute; reflexivity|apply (pressedb_ok "A"); vm_compute; reflexivity]|]. split; [vm_compute; reflexivity|].
    split; [apply next_ok; vm_compute; reflexivity|]. split; [rewrite failedb_ok; vm_compute; discriminate|rewrite overb_ok; vm_compute; discriminate].
  - exists kx_after, (sim_exec wx_oracle 1 kx_after), (fst (press_event kx_after)), (snd (press_event kx_after)).
    split; [apply sim_exec_init|]. split; [split; [apply press_event_ok; vm_compute; reflexivity|apply (pressedb_ok "A"); vm_compute; reflexivity]|]. split; [vm_compute; reflexivity|].
    split; [apply next_ok; vm_compute; reflexivity|]. split; [rewrite failedb_ok; vm_compute; reflexivity|rewrite overb_ok; vm_compute; reflexivity].
Qed.
