(** Witnesses for Props_Free.v. *)
From Verif Require Import Base BaseFacts Chunks DecMem Buffers Productions ProdSpec ProdWitness Sim SimWitness Compile CompileFacts CompileWitness Run RunSpec RunFacts RunWitness SafeSpec SafeWitness QuietWitness FreeSpec.
Local Open Scope string_scope.

(** [f] holds in all states from [S] on, which are at most [n]. *)
Fixpoint along (O : oracle) (f : sim -> bool) (n : nat) (S : sim) : bool :=
  match n with
  | Datatypes.O => false
  | Datatypes.S n => f S && match sim_step O S with Some S' => along O f n S' | None => true end
  end.
Lemma along_runs O f n S S' : along O f n S = true -> sim_runs O S S' -> exists m, along O f m S' = true.
Proof.
  intros H R. induction R as [S|S S1 S2 R IH Hs]; [eauto|]. destruct (IH H) as ([|m] & A); [discriminate|]. cbn [along] in A. rewrite Hs in A. apply andb_true_iff in A. exists m. apply A.
Qed.
Lemma along_all O f n S S' : along O f n S = true -> sim_runs O S S' -> f S' = true.
Proof. intros H R. destruct (along_runs _ _ _ _ _ H R) as ([|m] & A); [discriminate|]. cbn [along] in A. apply andb_true_iff in A. apply A. Qed.

Definition idle_commandb (m : meth) (c : content) (bs : bindings) : bool :=
  match m, c with
  | MRetrieve, CChunk o =>
      match resolve_slots bs true (removeunused o) with
      | Ok args => match dget args "cmd" with
                   | Some (RVV w) => match vvals w with VEmpty => true | VStr x => String.eqb x "None" | _ => false end
                   | _ => false
                   end
      | _ => false
      end
  | _, _ => false
  end.
Lemma idle_commandb_ok m c bs : idle_command m c bs <-> idle_commandb m c bs = true.
Proof.
  unfold idle_command, idle_commandb. split.
  - intros (-> & o & args & w & -> & A & B & C). rewrite A, B. destruct C as [-> | ->]; reflexivity.
  - intros H. destruct m; try discriminate. split; [reflexivity|]. destruct c as [o| | |]; try discriminate. destruct (resolve_slots bs true (removeunused o)) as [args|] eqn:A; try discriminate.
    destruct (dget args "cmd") as [[?|w| |?]|] eqn:B; try discriminate. exists o, args, w. repeat (split; [auto; fail|]). destruct (vvals w); try discriminate; [left; reflexivity|right]. apply String.eqb_eq in H. congruence.
Qed.
Definition idly_askedb (i : nat) (s : st) : bool := existsb (fun pr => match pr with PReq _ _ m j c bs _ => Nat.eqb i j && idle_commandb m c bs | _ => false end) (sprocs s).
Lemma idly_askedb_ok i s : idly_asked i s -> idly_askedb i s = true.
Proof.
  intros (id & n & m & c & bs & t & H & A). apply existsb_exists. exists (PReq id n m i c bs t). split; [exact H|]. cbn. rewrite Nat.eqb_refl. apply idle_commandb_ok. exact A.
Qed.
Definition workingb (i : nat) (s : st) : bool :=
  match nth_error (smods s) i with Some m => match dget (mattr m) "state" with Some x => String.eqb x "busy" | None => false end | None => false end.
Lemma workingb_ok i s : working i s <-> workingb i s = true.
Proof.
  unfold working, workingb. split.
  - intros (m & A & B). rewrite A, B. reflexivity.
  - destruct (nth_error (smods s) i) as [m|]; [|discriminate]. destruct (dget (mattr m) "state") as [x|] eqn:E; [|discriminate]. intros H. apply String.eqb_eq in H. subst x. eauto.
Qed.

(** Attention is shifted twice: the module of the visual buffer has been busy in between. *)
Definition vx_asks (rules : dict rule) : bool := along cw_oracle (fun S => negb (idly_askedb 2 (ss S))) 400 (vx_init rules).
Fixpoint until (O : oracle) (f : sim -> bool) (n : nat) (S : sim) : sim :=
  match n with
  | Datatypes.O => S
  | Datatypes.S n => if f S then S else match sim_step O S with Some S' => until O f n S' | None => S end
  end.
Lemma until_runs O f n : forall S0 S, sim_runs O S0 S -> sim_runs O S0 (until O f n S).
Proof.
  induction n as [|n IH]; intros S0 S R; [exact R|]. cbn [until]. destruct (f S); [exact R|]. destruct (sim_step O S) as [S'|] eqn:E; [|exact R]. apply IH. econstructor; [exact R|exact E].
Qed.
Lemma free_used : one_request (vx_state vx_shift) /\ plain_names (vx_state vx_shift) /\ NoDup (dkeys (snames (vx_state vx_shift))) /\ slow_eyes cw_oracle /\ compiles_with cw_oracle (fun _ _ => true) /\
  ~ working 2 (vx_state vx_shift) /\
  (forall S0, sim_runs cw_oracle (vx_init vx_shift) S0 -> ~ idly_asked 2 (ss S0)) /\
  (exists S, sim_runs cw_oracle (vx_init vx_shift) S /\ working 2 (ss S) /\ now S = 500%Z) /\
  (exists S, sim_runs cw_oracle (vx_init vx_shift) S /\ dead S = None /\ todo S = [] /\ heap S = [] /\ now S = 3500%Z) /\
  exists S, session cw_oracle 0 (vx_state vx_shift) None S None /\ heap S = [] /\ now S = 20000%Z.
Proof.
  destruct quiet_used as (A & B & C & _ & _ & D & E & _ & F). split; [exact A|]. split; [exact B|]. split; [exact C|]. split; [exact D|]. split; [exact E|].
  split; [intros X; apply workingb_ok in X; vm_compute in X; discriminate|]. split.
  { intros S0 R X. apply idly_askedb_ok in X. assert (N : vx_asks vx_shift = true) by (vm_compute; reflexivity). pose proof (along_all _ _ _ _ _ N R) as Y. cbv beta in Y. rewrite X in Y. discriminate. }
  split.
  { exists (until cw_oracle (fun S => workingb 2 (ss S)) 400 (vx_init vx_shift)). split; [apply until_runs; constructor|]. split; [apply workingb_ok; vm_compute; reflexivity|vm_compute; reflexivity]. }
  split; [|exact F]. exists (sim_exec cw_oracle 400 (vx_init vx_shift)). split; [apply sim_exec_runs; constructor|]. repeat (split; [vm_compute; reflexivity|]). vm_compute. reflexivity.
Qed.

(** The command None. *)
Definition vx_idle : chunk := MkChunk "_visual" [("cmd", plain (VStr "None")); ("value", plain (VStr "x"))].
Definition vx_idly : dict rule := [("one", MkRule (wx_lhs "start") [("=g", CChunk (wx_goal "end")); ("+visual", CChunk vx_idle)] 0 None)].
Lemma busy_forever : exists O tie t s S, compiles_with O tie /\ one_request s /\ plain_names s /\ svars s = nobind /\ sprocs s = [] /\ NoDup (dkeys (snames s)) /\ slow_eyes O /\
  (forall i, ~ working i s) /\ sim_runs O (sim_init t s None) S /\ dead S = None /\ todo S = [] /\ heap S = [] /\ exists i, working i (ss S).
Proof.
  exists cw_oracle, (fun _ _ => true), 0%Z, (vx_state vx_idly), (sim_exec cw_oracle 400 (vx_init vx_idly)).
  split; [exact cw_compiles|]. split; [apply names_ok_spec; vm_compute; reflexivity|]. split; [apply vx_plain|]. split; [reflexivity|]. split; [reflexivity|]. split; [apply vx_nodup|]. split; [exact cw_slow|].
  split; [intros [|[|[|[|i]]]] X; apply workingb_ok in X; vm_compute in X; discriminate|]. split; [apply sim_exec_runs; constructor|].
  repeat (split; [vm_compute; reflexivity|]). exists 2%nat. apply workingb_ok. vm_compute. reflexivity.
Qed.

(** The rules that shift attention name their commands. *)
Lemma shift_commanded : commanded 2 (vx_state vx_shift) /\ exists r ru n c o v, dget (srules (vx_state vx_shift)) r = Some ru /\ dget (snames (vx_state vx_shift)) n = Some 2%nat /\ In (String "+" n, c) (rrhs ru) /\ c = CChunk o /\ In ("cmd", v) (cslots o).
Proof.
  split.
  - intros r ru n c Er En Hin. cbn [snames vx_state dget] in En. assert (N : n = "visual").
    { destruct (String.eqb_spec "g" n); [discriminate|]. destruct (String.eqb_spec "retrieval" n); [discriminate|]. destruct (String.eqb_spec "visual" n); [congruence|discriminate]. }
    subst n. assert (K : Some ru = nth_error (map snd vx_shift) 0 \/ Some ru = nth_error (map snd vx_shift) 1).
    { change (dget vx_shift r = Some ru) in Er. cbn [vx_shift vx_rules dget] in Er. destruct (String.eqb "one" r); [left; exact (eq_sym Er)|]. destruct (String.eqb "two" r); [right; exact (eq_sym Er)|discriminate]. }
    destruct K as [K|K]; cbn in K; injection K as ->; cbn in Hin; (destruct Hin as [X|[X|[]]]; [discriminate X|]; injection X as <-; intros o v [= <-] Hv; cbn in Hv; decompose [or] Hv; try contradiction;
      repeat match goal with H : (_, _) = (_, _) |- _ => injection H; clear H; intros; subst end; try discriminate; exists "move_attention"; repeat split; left; reflexivity).
  - eexists "one", _, "visual", _, _, _. repeat split; [right; left; reflexivity|]. cbn. auto.
Qed.
